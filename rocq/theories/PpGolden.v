(** Tests (not proofs) that validate the preprocessor model: inputs, expected outputs and error
    messages copied from tests/sv_pp/{src,expected}, tests/test_verilog_preproc.py and
    tests/test_verilog_preproc_include.py of the repository. *)
From Verif Require Import Base MacroDefModel OutBufferModel PpModel.

(** Resolution of . and .. done by the operating system. *)
Fixpoint split (s cur : str) : list str :=
  match s with
  | [] => [cur]
  | c :: s' => if ceqb c "/" then cur :: split s' [] else split s' (cur ++ [c])
  end.
Fixpoint resolve (ps acc : list str) : list str :=
  match ps with
  | [] => rev acc
  | p :: ps' => if seqb p $"." then resolve ps' acc
                else if seqb p $".." then resolve ps' (tl acc) else resolve ps' (p :: acc)
  end.
Fixpoint slashes (ps : list str) : str :=
  match ps with [] => [] | [p] => p | p :: ps' => p ++ $"/" ++ slashes ps' end.
Definition norm (p : str) : str := slashes (resolve (split p []) []).
Definition assoc (l : list (str * str)) : fsys :=
  fun p => option_map snd (List.find (fun x => seqb (fst x) (norm p)) l).
Definition files : list (str * str) := [
  ($"sv_pp/src/2012_p641.txt",
$"`define D(x,y) initial $display(""start"", x , y, ""end"");

`D( ""msg1"" , ""msg2"" )
`D( "" msg1"", )
`D(, ""msg2 "")
`D(,)

");
  ($"sv_pp/src/2012_p641_il1.txt",
$"`define D(x,y) initial $display(""start"", x , y, ""end"");

`D(""msg1"")
");
  ($"sv_pp/src/2012_p641_il2.txt",
$"`define D(x,y) initial $display(""start"", x , y, ""end"");

`D()
");
  ($"sv_pp/src/2012_p641_il3.txt",
$"`define D(x,y) initial $display(""start"", x , y, ""end"");

`D(,,)
");
  ($"sv_pp/src/2012_p642.txt",
$"`define MACRO1(a=5,b=""B"",c) $display(a,,b,,c);

`MACRO1 ( , 2, 3 )
`MACRO1 ( 1 , , 3 )
`MACRO1 ( , 2, )

`define MACRO2(a=5, b, c=""C"") $display(a,,b,,c);

`MACRO2 (1, , 3)
`MACRO2 (, 2, )
`MACRO2 (, 2)

`define MACRO3(a=5, b=0, c=""C"") $display(a,,b,,c);

`MACRO3 ( 1 )
`MACRO3 ( )
");
  ($"sv_pp/src/2012_p642_2.txt",
$"`define wordsize 8
logic [1:`wordsize] data;
//define a nand with variable delay
`define var_nand(dly) nand #(dly)
`var_nand(2) g121 (q21, n10, n11);
`var_nand(5) g122 (q22, n10, n11);
");
  ($"sv_pp/src/2012_p642_il1.txt",
$"`define MACRO1(a=5,b=""B"",c) $display(a,,b,,c);

`MACRO1 ( 1 )
");
  ($"sv_pp/src/2012_p642_il2.txt",
$"`define MACRO3(a=5, b=0, c=""C"") $display(a,,b,,c);

`MACRO3
");
  ($"sv_pp/src/2012_p642_il3.txt",
$"`define first_half ""start of string
$display(`first_half end of string"");
");
  ($"sv_pp/src/2012_p643.txt",
$"`define max(a,b)((a) > (b)) ? (a) : (b)
n = `max(p+q, r+s) ;
");
  ($"sv_pp/src/2012_p643_2.txt",
$"`define TOP(a,b) a + b
`TOP( `TOP(b,1), `TOP(42,a) )
");
  ($"sv_pp/src/2012_p643_3.txt",
$"`define HI Hello
`define LO ""`HI, world""
`define H(x) ""Hello, x""
""`HI, world""
`LO
`H(world)
");
  ($"sv_pp/src/2012_p644.txt",
$"`define msg(x,y) `""x: `\`""y`\`""`""
`msg(left side,right side)

`define append(f) f``_master
`append(clock)
");
  ($"sv_pp/src/2012_p644_2.txt",
$"`define home(filename) `""empty.txt`""
`include `home(myfile)
");
  ($"sv_pp/src/debug_macro.txt",
$"`include ""../src/debug_macro.vh""

`debug(""msg"")
");
  ($"sv_pp/src/debug_macro.vh",
$"`ifndef _debug_macro_vh_
`define _debug_macro_vh_

`define debug(msg) \
    $display("">> %s, %d: %s"", `__FILE__, `__LINE__, msg)

`endif");
  ($"sv_pp/src/def_in_def.txt",
$"// https://www.veripool.org/papers/Preproc_Good_Evil_SNUGBos10_paper.pdf
`define DODEF(d) d \

`define DEF2 `DODEF(`define DEF0 0)

`DODEF(`define DEF1 1)
`DEF2

`DEF0
`DEF1
");
  ($"sv_pp/src/defined_defargs.txt",
$"// https://www.veripool.org/papers/Preproc_Good_Evil_SNUGBos10_paper.pdf p
`define NONE
`define MSG(fmt,a1=`NONE,a2=`NONE,a3=`NONE) \
       $display(fmt,a1,a2,a3)
`MSG(""Format a=%x, b=%x"",a,b); 
");
  ($"sv_pp/src/empty.txt",
$"");
  ($"sv_pp/src/include_many_dir/dir0-a/dir1-a/file2-a.txt",
$"""file2-a.txt""");
  ($"sv_pp/src/include_many_dir/dir0-a/dir1-a/file2-b.txt",
$"""file2-a.txt""
");
  ($"sv_pp/src/include_many_dir/dir0-a/dir1-a/spec_incdir.txt",
$"`include ""file.txt""");
  ($"sv_pp/src/include_many_dir/dir0-a/dir1-a/transitive-1.txt",
$"""transitive-1""
`include ""../transitive-2.txt""");
  ($"sv_pp/src/include_many_dir/dir0-a/file.txt",
$"""good content""");
  ($"sv_pp/src/include_many_dir/dir0-a/local_include_higher_priority.txt",
$"`include ""file.txt""");
  ($"sv_pp/src/include_many_dir/dir0-a/transitive-0.txt",
$"""transitive-0""
`include ""dir1-a/transitive-1.txt""");
  ($"sv_pp/src/include_many_dir/dir0-a/transitive-2.txt",
$"""transitive-2""
`include ""transitive-3.txt""");
  ($"sv_pp/src/include_many_dir/dir0-a/transitive-3.txt",
$"""transitive-3""");
  ($"sv_pp/src/include_many_dir/file.txt",
$"""this file should not be included""");
  ($"sv_pp/src/include_many_dir/from_subdirectory.txt",
$"`include ""dir0-a/dir1-a/file2-a.txt""
`include ""./dir0-a/dir1-a/file2-a.txt""
`include ""./dir0-a/../dir0-a/dir1-a/file2-a.txt""
");
  ($"sv_pp/src/include_many_dir/from_subdirectory2.txt",
$"`include ""dir0-a/dir1-a/file2-b.txt""
`include ""./dir0-a/dir1-a/file2-b.txt""
`include ""./dir0-a/../dir0-a/dir1-a/file2-b.txt""
");
  ($"sv_pp/src/include_many_dir/transitive.txt",
$"`include ""dir0-a/transitive-0.txt""");
  ($"sv_pp/src/include_same_dir/a.vh",
$"`ifndef _a_vh_
`define _a_vh_
""a.vh""
`endif");
  ($"sv_pp/src/include_same_dir/basic_include.txt",
$"`include ""a.vh""");
  ($"sv_pp/src/include_same_dir/basic_include2times.txt",
$"`include ""a.vh""
`include ""a.vh""");
  ($"sv_pp/src/indirect_ifdef.err.txt",
$"// https://www.veripool.org/papers/Preproc_Good_Evil_SNUGBos10_paper.pdf
`define DEFINED
`define INDIRECT(d) d
`ifdef `INDIRECT(DEFINED)
	""passed""
`endif");
  ($"sv_pp/src/macro_args.txt",
$"`define m0 ""abc""
`define m1(x) x

`m0(123)
`m0(123, ""a""
 , ""b"", 1++<<<
    >> )
`m1(456)
// `m2(");
  ($"sv_pp/src/preproc_hash_table.txt",
$"// https://www.veripool.org/papers/Preproc_Good_Evil_SNUGBos10_paper.pdf

// Read hash: hash[key]
`define BSV_HASH_GET(hash,key) `hash``key  
// Store hash: hash[key] = v 
`define BSV_HASH_PUT(hash,key,v) \
     `BSV_DEFINEIT(`define hash``key v )
// Hash exists: defined(hash[key]) 
`define BSV_HASH_EXISTS(hash,key) `BSV_DEFINED(hash``key)

// For wrapping defines
// Note the backslash newline on the `define line 
// and the newline following, required to form the end of a define 
`define BSV_DEFINEIT(d) d \

// If  defined(<d>) then 1 else 0 
`define BSV_DEFINED(d)  `ifdef d 1 `else 0 `endif 


`BSV_HASH_PUT(table_0, a, 0)
`BSV_HASH_PUT(table_0, b, 1)
`BSV_HASH_PUT(table_0, c, 2)
`BSV_HASH_PUT(table_1, a1, 10)
`BSV_HASH_PUT(table_1, b1, 11)
`BSV_HASH_PUT(table_1, c1, 12)

`BSV_HASH_GET(table_0, a) `BSV_HASH_GET(table_0, b) `BSV_HASH_GET(table_0, c) 
`BSV_HASH_GET(table_1, a1) `BSV_HASH_GET(table_1, b1) `BSV_HASH_GET(table_1, c1)
");
  ($"sv_pp/src/protect.v",
$"module  mux_using_if(
   din_0      , // Mux first input
   din_1      , // Mux Second input
   sel        , // Select input
   mux_out      // Mux output
   );

 `protect
//-----------Input Ports---------------
input din_0, din_1, sel ;
//-----------Output Ports---------------
output mux_out;
//------------Internal Variables--------
reg  mux_out;
//-------------Code Starts Here---------
always @ (sel or din_0 or din_1)
begin : MUX
  if (sel == 1'b0) begin
      mux_out = din_0;
  end else begin
      mux_out = din_1 ;
  end
end
`endprotect

endmodule

");
  ($"sv_pp/src/stringify.txt",
$"// https://www.veripool.org/papers/Preproc_Good_Evil_SNUGBos10_paper.pdf

`define STRINGIFY(d) `""d`""
`STRINGIFY(hello)
");
  ($"sv_pp/src/stringify_multiline.txt",
$"// https://www.veripool.org/papers/Preproc_Good_Evil_SNUGBos10_paper.pdf
`define MULTILINE line1 \
                 line2
`define MSG(m) `""m`""

$display(`MSG(`MULTILINE))");
  ($"sv_pp/src/test_FILE_LINE.sv",
$"module tb();

initial
	$display(""Internal error: null handle at %s, line %d."",
`__FILE__, `__LINE__);


endmodule
")].

Definition no_dirs : list str := [].
Definition user_macro (n : string) : str * entry :=
  (s2l n, mkEntry true (MUser (mkMacro (s2l n) false [] [FStr []]))).
Definition run_sv (d : db) (f : string) : outcome str :=
  text_of (verilog_pp_file SV2017 (assoc files) d [$"sv_pp/src"] (s2l f)).
Definition run_v (dirs : list str) (f : string) : outcome str :=
  text_of (verilog_pp_file VERILOG2001 (assoc files) [] dirs (s2l f)).
Definition ends_with (suf s : str) : bool := is_prefix (rev suf) (rev s).
Definition error_ends (suf : string) (r : outcome str) : bool :=
  match r with Throw (ParseException m) => ends_with (s2l suf) m | _ => false end.
Definition is_syntax_error (r : outcome str) : bool :=
  match r with Throw (ParseException m) => seqb m $"SyntaxError" | _ => false end.

Example golden_2012_p641_txt : run_sv [] "sv_pp/src/2012_p641.txt" = Ok $"

initial $display(""start"", ""msg1"" , ""msg2"", ""end"");
initial $display(""start"", "" msg1"" , , ""end"");
initial $display(""start"",  , ""msg2 "", ""end"");
initial $display(""start"",  , , ""end"");

".
Proof. vm_compute. reflexivity. Qed.

Example golden_2012_p642_txt : run_sv [] "sv_pp/src/2012_p642.txt" = Ok $"

$display(5,,2,,3);
$display(1,,""B"",,3);
$display(5,,2,,);



 $display(1,,,,3);
 $display(5,,2,,""C"");
 $display(5,,2,,""C"");



 $display(1,,0,,""C"");
 $display(5,,0,,""C"");
".
Proof. vm_compute. reflexivity. Qed.

Example golden_2012_p642_2_txt : run_sv [] "sv_pp/src/2012_p642_2.txt" = Ok $"
logic [1:8] data;
//define a nand with variable delay

nand #(2) g121 (q21, n10, n11);
nand #(5) g122 (q22, n10, n11);
".
Proof. vm_compute. reflexivity. Qed.

Example golden_2012_p643_txt : run_sv [] "sv_pp/src/2012_p643.txt" = Ok $"
n = ((p+q) > (r+s)) ? (p+q) : (r+s) ;
".
Proof. vm_compute. reflexivity. Qed.

Example golden_2012_p643_2_txt : run_sv [] "sv_pp/src/2012_p643_2.txt" = Ok $"
b + 1 + 42 + a
".
Proof. vm_compute. reflexivity. Qed.

Example golden_2012_p643_3_txt : run_sv [] "sv_pp/src/2012_p643_3.txt" = Ok $"


""`HI, world""
""`HI, world""
""Hello, x""
".
Proof. vm_compute. reflexivity. Qed.

Example golden_2012_p644_txt : run_sv [] "sv_pp/src/2012_p644.txt" = Ok $"
""left side: \""right side\""""


clock_master
".
Proof. vm_compute. reflexivity. Qed.

Example golden_2012_p644_2_txt : run_sv [] "sv_pp/src/2012_p644_2.txt" = Ok $"

".
Proof. vm_compute. reflexivity. Qed.

Example golden_debug_macro_txt : run_sv [] "sv_pp/src/debug_macro.txt" = Ok $"






    $display("">> %s, %d: %s"", ""sv_pp/src/debug_macro.txt"", 3, ""msg"")
".
Proof. vm_compute. reflexivity. Qed.

Example golden_protect_v : run_sv [user_macro "protect"; user_macro "endprotect"] "sv_pp/src/protect.v" = Ok $"module  mux_using_if(
   din_0      , // Mux first input
   din_1      , // Mux Second input
   sel        , // Select input
   mux_out      // Mux output
   );

 
//-----------Input Ports---------------
input din_0, din_1, sel ;
//-----------Output Ports---------------
output mux_out;
//------------Internal Variables--------
reg  mux_out;
//-------------Code Starts Here---------
always @ (sel or din_0 or din_1)
begin : MUX
  if (sel == 1'b0) begin
      mux_out = din_0;
  end else begin
      mux_out = din_1 ;
  end
end


endmodule

".
Proof. vm_compute. reflexivity. Qed.

Example golden_def_in_def_txt : run_sv [] "sv_pp/src/def_in_def.txt" = Ok $"// https://www.veripool.org/papers/Preproc_Good_Evil_SNUGBos10_paper.pdf







0
1
".
Proof. vm_compute. reflexivity. Qed.

Example golden_defined_defargs_txt : run_sv [] "sv_pp/src/defined_defargs.txt" = Ok $"// https://www.veripool.org/papers/Preproc_Good_Evil_SNUGBos10_paper.pdf p



 
       $display(""Format a=%x, b=%x"",a,b,); 
".
Proof. vm_compute. reflexivity. Qed.

Example golden_preproc_hash_table_txt : run_sv [] "sv_pp/src/preproc_hash_table.txt" = Ok $"// https://www.veripool.org/papers/Preproc_Good_Evil_SNUGBos10_paper.pdf

// Read hash: hash[key]

// Store hash: hash[key] = v 


// Hash exists: defined(hash[key]) 


// For wrapping defines
// Note the backslash newline on the `define line 
// and the newline following, required to form the end of a define 


// If  defined(<d>) then 1 else 0 



     
     
     
     
     
     

0 1 2 
10 11 12
".
Proof. vm_compute. reflexivity. Qed.

Example golden_stringify_multiline_txt : run_sv [] "sv_pp/src/stringify_multiline.txt" = Ok $"// https://www.veripool.org/papers/Preproc_Good_Evil_SNUGBos10_paper.pdf




$display(""line1 \
                 line2"")".
Proof. vm_compute. reflexivity. Qed.

Example golden_stringify_txt : run_sv [] "sv_pp/src/stringify.txt" = Ok $"// https://www.veripool.org/papers/Preproc_Good_Evil_SNUGBos10_paper.pdf


""hello""
".
Proof. vm_compute. reflexivity. Qed.

Example golden_macro_args_txt : run_sv [] "sv_pp/src/macro_args.txt" = Ok $"


""abc""(123)
""abc""(123, ""a""
 , ""b"", 1++<<<
    >> )
456
// `m2(".
Proof. vm_compute. reflexivity. Qed.

Example golden_2012_p641_il1 : error_ends "Macro D missing value for parameter y (2 arguments expected but 1 provided)." (run_sv [] "sv_pp/src/2012_p641_il1.txt") = true.
Proof. vm_compute. reflexivity. Qed.

Example golden_2012_p641_il2 : error_ends "Macro D missing value for parameter y (2 arguments expected but 0 provided)." (run_sv [] "sv_pp/src/2012_p641_il2.txt") = true.
Proof. vm_compute. reflexivity. Qed.

Example golden_2012_p641_il3 : error_ends "Macro D expected 2 arguments but 3 provided." (run_sv [] "sv_pp/src/2012_p641_il3.txt") = true.
Proof. vm_compute. reflexivity. Qed.

Example golden_2012_p642_il1 : error_ends "Macro MACRO1 missing value for parameter c (1 to 3 arguments expected but 1 provided)." (run_sv [] "sv_pp/src/2012_p642_il1.txt") = true.
Proof. vm_compute. reflexivity. Qed.

Example golden_2012_p642_il2 : error_ends "Macro MACRO3 requires braces and expects 0 to 3 arguments." (run_sv [] "sv_pp/src/2012_p642_il2.txt") = true.
Proof. vm_compute. reflexivity. Qed.

Example golden_2012_p642_il3 : is_syntax_error (run_sv [] "sv_pp/src/2012_p642_il3.txt") = true.
Proof. vm_compute. reflexivity. Qed.

Example golden_indirect_ifdef_err : is_syntax_error (run_sv [] "sv_pp/src/indirect_ifdef.err.txt") = true.
Proof. vm_compute. reflexivity. Qed.

Example golden_FILE_LINE : run_sv [] "sv_pp/src/test_FILE_LINE.sv" = Ok $"module tb();

initial
	$display(""Internal error: null handle at %s, line %d."",
""sv_pp/src/test_FILE_LINE.sv"", 5);


endmodule
".
Proof. vm_compute. reflexivity. Qed.

Example golden_basic_include : run_v no_dirs "sv_pp/src/include_same_dir/basic_include.txt" = Ok $"

""a.vh""
".
Proof. vm_compute. reflexivity. Qed.

Example golden_basic_include2times : run_v no_dirs "sv_pp/src/include_same_dir/basic_include2times.txt" = Ok $"

""a.vh""
".
Proof. vm_compute. reflexivity. Qed.

Example golden_from_subdirectory : run_v no_dirs "sv_pp/src/include_many_dir/from_subdirectory.txt" = Ok $"""file2-a.txt""""file2-a.txt""""file2-a.txt""".
Proof. vm_compute. reflexivity. Qed.

Example golden_from_subdirectory2 : run_v no_dirs "sv_pp/src/include_many_dir/from_subdirectory2.txt" = Ok $"""file2-a.txt""
""file2-a.txt""
""file2-a.txt""
".
Proof. vm_compute. reflexivity. Qed.

Example golden_local_prio : run_v no_dirs "sv_pp/src/include_many_dir/dir0-a/local_include_higher_priority.txt" = Ok $"""good content""".
Proof. vm_compute. reflexivity. Qed.

Example golden_spec_incdir : run_v [$"sv_pp/src/include_many_dir/dir0-a"] "sv_pp/src/include_many_dir/dir0-a/dir1-a/spec_incdir.txt" = Ok $"""good content""".
Proof. vm_compute. reflexivity. Qed.

Example golden_spec_incdir2 : run_v [$"sv_pp/src/include_many_dir/dir0-a"; $"sv_pp/src/include_many_dir"] "sv_pp/src/include_many_dir/dir0-a/dir1-a/spec_incdir.txt" = Ok $"""good content""".
Proof. vm_compute. reflexivity. Qed.

Example golden_transitive : run_v no_dirs "sv_pp/src/include_many_dir/transitive.txt" = Ok $"""transitive-0""
""transitive-1""
""transitive-2""
""transitive-3""".
Proof. vm_compute. reflexivity. Qed.

(** tests/test_verilog_preproc_grammar.py *)
Definition run_raw (s : str) : outcome str :=
  text_of (verilog_pp_str SV2017 (fun _ => None) [] [$"sv_pp/raw"] s).
Example raw_test_celldefine : is_ok (run_raw $"

`celldefine


`endcelldefine



") = true.
Proof. vm_compute. reflexivity. Qed.

Example raw_test_comments : is_ok (run_raw $"
// The ~utils~ macros define the infrastructure needed to enable the
// object/component for correct factory operation. See <`uvm_object_utils> and
// <`uvm_component_utils> for details.
//
// A ~utils~ macro should be used inside ~every~ user-defined class that extends
// <uvm_object> directly or indirectly, including <uvm_sequence_item> and
// <uvm_component>.
//
// Below is an example usage of the ~utils~ macro for a user-defined object.
//
//|  class mydata extends uvm_object;
//|
//|     `uvm_object_utils(mydata)
//|
//|     // declare data properties
//|
//|    function new(string name=""mydata_inst"");
//|      super.new(name);
//|    endfunction
//|
//|  endclass
//
// Below is an example usage of a ~utils~ macro for a user-defined component.
//
//|  class my_comp extends uvm_component;
//|
//|     `uvm_component_utils(my_comp)
//|
//|     // declare data properties
//|
//|    function new(string name, uvm_component parent=null);
//|      super.new(name,parent);
//|    endfunction
//|
//|  endclass
//
//------------------------------------------------------------------------------

") = true.
Proof. vm_compute. reflexivity. Qed.

Example raw_test_default_nettype : is_ok (run_raw $"

`default_nettype wire

`default_nettype tri

`default_nettype tri0

`default_nettype tri1

`default_nettype wand

`default_nettype triand

`default_nettype wor

`default_nettype trior

`default_nettype trireg

`default_nettype none

`default_nettype uwire


") = true.
Proof. vm_compute. reflexivity. Qed.

Example raw_test_define1 : is_ok (run_raw $"`define toto
") = true.
Proof. vm_compute. reflexivity. Qed.

Example raw_test_define2 : is_ok (run_raw $"`define macro toto
") = true.
Proof. vm_compute. reflexivity. Qed.

Example raw_test_define3 : is_ok (run_raw $"`define macro(a) a+a
") = true.
Proof. vm_compute. reflexivity. Qed.

Example raw_test_define4 : is_ok (run_raw $"`define macro(a,b) a**b
") = true.
Proof. vm_compute. reflexivity. Qed.

Example raw_test_define5 : is_ok (run_raw $"`define macro(a) a\
                 +\
                 a
") = true.
Proof. vm_compute. reflexivity. Qed.

Example raw_test_define6 : is_ok (run_raw $"`define macro(a=) a+a
") = true.
Proof. vm_compute. reflexivity. Qed.

Example raw_test_define7 : is_ok (run_raw $"`define macro(a=rdfhgjnk) a+a
") = true.
Proof. vm_compute. reflexivity. Qed.

Example raw_test_define8 : is_ok (run_raw $"`define A

rigolo l'asticot
") = true.
Proof. vm_compute. reflexivity. Qed.

Example raw_test_define9 : is_ok (run_raw $"
//lala
`define toto

") = true.
Proof. vm_compute. reflexivity. Qed.

Example raw_test_define10 : is_ok (run_raw $"
`define uvm_message_add_tag(NAME, VALUE, ACTION=(UVM_LOG|UVM_RM_RECORD)) \
    __uvm_msg.add_string(NAME, VALUE, ACTION);


") = true.
Proof. vm_compute. reflexivity. Qed.

Example raw_test_define11 : is_ok (run_raw $"

`define uvm_cb_trace_noobj(CB,OPER) /* null */

") = true.
Proof. vm_compute. reflexivity. Qed.

Example raw_test_define12 : is_ok (run_raw $"`define max(a,b)-


") = true.
Proof. vm_compute. reflexivity. Qed.

Example raw_test_define13 : is_ok (run_raw $"`define max(a,b)(a,b)
") = true.
Proof. vm_compute. reflexivity. Qed.

Example raw_test_ifdef : is_ok (run_raw $"


`ifdef macro


`endif
") = true.
Proof. vm_compute. reflexivity. Qed.

Example raw_test_ifdef1 : is_ok (run_raw $"


`ifdef macro

zozo

`endif
") = true.
Proof. vm_compute. reflexivity. Qed.

Example raw_test_ifdef2 : is_ok (run_raw $"

`ifdef macro
 
  Zozo1

`else

ZoZo2

`endif
") = true.
Proof. vm_compute. reflexivity. Qed.

Example raw_test_ifdef3 : is_ok (run_raw $"

`ifdef macro
 
  Zozo1

`elsif DATA

AZERTYHJ

`define A
 i
`else

ZoZo2

`endif
") = true.
Proof. vm_compute. reflexivity. Qed.

Example raw_test_ifndef1 : is_ok (run_raw $"





`ifndef macro


`endif

") = true.
Proof. vm_compute. reflexivity. Qed.

Example raw_test_include : error_ends "Error: ""file1.txt"" was not found in include directories
" (run_raw $"
`include ""file1.txt""

`include <lala.txt>
") = true.
Proof. vm_compute. reflexivity. Qed.

Example raw_test_keywords1 : is_ok (run_raw $"
`begin_keywords ""1800-2005"" 
module m2 (...);
reg [63:0] logic;
// ERROR: ""logic"" is a keyword in 1800-2005
...
endmodule
`end_keywords
") = true.
Proof. vm_compute. reflexivity. Qed.

Example raw_test_keywords2 : is_ok (run_raw $"
`begin_keywords ""1800-2005"" // use IEEE Std 1800-2005 SystemVerilog keywords
module m2 (...);
reg [63:0] logic;
// ERROR: ""logic"" is a keyword in 1800-2005
...
endmodule
`end_keywords
") = true.
Proof. vm_compute. reflexivity. Qed.

Example raw_test_line_directive : is_ok (run_raw $"

`line 145 ""thefile.txt"" 4


") = true.
Proof. vm_compute. reflexivity. Qed.

Example raw_test_pragma1 : is_ok (run_raw $"module secret (a, b);
    input a;
    output b;
`pragma protect encoding=(enctype=""raw"")
`pragma protect data_method=""x-caesar"", data_keyname=""rot13"", begin
`pragma protect
runtime_license=(library=""lic.so"",feature=""runSecret"",entry=""chk"", match=42)
    logic b;

    initial begin
        b = 0;
    end

    always begin
        #5 b = a;
    end
`pragma protect end

endmodule // secret
") = true.
Proof. vm_compute. reflexivity. Qed.

Example raw_test_pragma2 : is_ok (run_raw $"module secret (a, b);
    input a;
    output b;
`pragma protect encoding=(enctype=""raw"")
`pragma protect data_method=""x-caesar"", data_keyname=""rot13"", begin
`pragma protect runtime_license=(library=""lic.so"",feature=""runSecret"",entry=""chk"", match=42)
    logic b;

    initial begin
        b = 0;
    end

    always begin
        #5 b = a;
    end
`pragma protect end

endmodule // secret
") = true.
Proof. vm_compute. reflexivity. Qed.

Example raw_test_real1 : is_ok (run_raw $"

`define uvm_object_utils(T)
`define uvm_field_int(ARG,FLAG=UVM_DEFAULT)

") = true.
Proof. vm_compute. reflexivity. Qed.

Example raw_test_real2 : is_ok (run_raw $"`ifndef UVM_OBJECT_DEFINES_SVH
`define UVM_OBJECT_DEFINES_SVH


`ifdef UVM_EMPTY_MACROS

`define uvm_object_utils(T)
`define uvm_field_int(ARG,FLAG=UVM_DEFAULT)

`else
// The ~utils~ macros define the infrastructure needed to enable the
// object/component for correct factory operation. See <`uvm_object_utils> and
// <`uvm_component_utils> for details.

`endif
`endif
") = true.
Proof. vm_compute. reflexivity. Qed.

Example raw_test_timingspec : is_ok (run_raw $"


`timescale 1ns / 10ps


") = true.
Proof. vm_compute. reflexivity. Qed.

Example raw_test_token1 : error_ends "uvm_info is not defined" (run_raw $"module dut(dut_if dif);
  import uvm_pkg::*;
  always @(posedge dif.clock)
    if (dif.reset != 1) begin
      `uvm_info
    end
endmodule
") = true.
Proof. vm_compute. reflexivity. Qed.

Example raw_test_token2 : error_ends "uvm_info is not defined" (run_raw $"      `uvm_info  
") = true.
Proof. vm_compute. reflexivity. Qed.

Example raw_test_token3 : error_ends "D is not defined" (run_raw $"`D( ""msg1"" , ""msg2"" )
") = true.
Proof. vm_compute. reflexivity. Qed.

Example raw_test_token4 : error_ends "D is not defined" (run_raw $"
`D( "" msg1"", )

") = true.
Proof. vm_compute. reflexivity. Qed.

Example raw_test_token5 : error_ends "D is not defined" (run_raw $"

`D(, ""msg2 "")

") = true.
Proof. vm_compute. reflexivity. Qed.

Example raw_test_token6 : error_ends "D is not defined" (run_raw $"
`D(,)
") = true.
Proof. vm_compute. reflexivity. Qed.

Example raw_test_token7 : error_ends "wordsize is not defined" (run_raw $"`wordsize data;
logic [1:`wordsize] data;

") = true.
Proof. vm_compute. reflexivity. Qed.

Example raw_test_token8 : error_ends "sum is not defined" (run_raw $"
  `sum ( \
    `sqr(a) \
   , \
    `sqr(b) \
   )


") = true.
Proof. vm_compute. reflexivity. Qed.

Example raw_test_unconnected_drive : is_ok (run_raw $"



`unconnected_drive pull0


`nounconnected_drive
") = true.
Proof. vm_compute. reflexivity. Qed.

Example raw_test_undef : is_ok (run_raw $"

`undef y6aze

") = true.
Proof. vm_compute. reflexivity. Qed.

Example raw_test_space_between_comments : is_ok (run_raw $"/////////////////////////////////////////////////////////////////////

//  CVS Log
") = true.
Proof. vm_compute. reflexivity. Qed.

