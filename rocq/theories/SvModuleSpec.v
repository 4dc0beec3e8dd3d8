(** What a module with a non-ANSI header declares (IEEE 1800 clause 23.2.2.1): the ports of the header, each
    described by its declarations in the body. *)
From Verif Require Import Base AstModel StmModel SvTypeModel SvDeclModel.

(** All port declarations and all other objects of the body, in order. *)
Definition decls_of {X} (items : list (mitem X)) : list iddef := flat_map (fun i => match i with MI_ports l => l | MI_objs _ => [] end) items.
Definition objs_of {X} (items : list (mitem X)) : list (mobj X) := flat_map (fun i => match i with MI_ports _ => [] | MI_objs l => l end) items.
Definition vars_of {X} (items : list (mitem X)) : list iddef := flat_map (fun o => match o with MO_id v => [v] | MO_other _ => [] end) (objs_of items).

Definition named (n : str) (d : iddef) : bool := seqb (d_name d) n.
Definition about (n : str) (l : list iddef) : list iddef := filter (named n) l.
(** A name is a port when the header or a port declaration has it; new names come last. *)
Definition add_name (l : list str) (n : str) : list str := if existsb (seqb n) l then l else l ++ [n].
Definition port_names {X} (header : list iddef) (items : list (mitem X)) : list str :=
  fold_left add_name (map d_name (decls_of items)) (map d_name header).
(** The last one that says something. *)
Definition last_some {X} (l : list (option X)) : option X := fold_left (fun a x => match x with Some _ => x | None => a end) l None.
Definition given_type (d : iddef) : option expr := match d_type d with ENull => None | t => Some t end.
Definition port_type {X} (header : list iddef) (items : list (mitem X)) (n : str) : expr :=
  match last_some (map given_type (about n header ++ about n (decls_of items) ++ about n (vars_of items))) with Some t => t | None => type_auto end.
Definition port_value {X} (header : list iddef) (items : list (mitem X)) (n : str) : option expr :=
  last_some (map d_value (about n header ++ about n (decls_of items) ++ about n (vars_of items))).
Definition port_dir {X} (header : list iddef) (items : list (mitem X)) (n : str) : option direction :=
  last_some (map (fun d => Some (d_dir d)) (about n header ++ about n (decls_of items))).
Definition port_latched {X} (header : list iddef) (items : list (mitem X)) (n : str) : bool :=
  existsb d_latched (about n header ++ about n (decls_of items) ++ about n (vars_of items)).
(** The rest of the body. *)
Definition not_port {X} (ports : list str) (o : mobj X) : bool :=
  match o with MO_id v => negb (existsb (seqb (d_name v)) ports) | MO_other _ => true end.

(** Every declaration in the body has a type; no direction is missing; the name [.*] does not occur. *)
Definition typed (d : iddef) : bool := match d_type d with ENull => false | _ => true end.
Definition directed (d : iddef) : bool := match d_dir d with DIR_UNKNOWN => false | _ => true end.
Definition no_star (d : iddef) : bool := negb (seqb (d_name d) $".*").
Definition regular {X} (header : list iddef) (items : list (mitem X)) : bool :=
  forallb no_star (header ++ decls_of items) && forallb directed (header ++ decls_of items) && forallb typed (decls_of items ++ vars_of items).
