-Q theories Verif
theories/Base.v
theories/StrUtilsModel.v
theories/MacroDefModel.v
theories/RegexModel.v
theories/OutBufferModel.v
theories/PpLexerModel.v
theories/PpParserModel.v
theories/PpModel.v
theories/PpGolden.v
theories/BaseFacts.v
theories/StrSpec.v
theories/MacroSpec.v
theories/StrUtilsProofs.v
theories/MacroDefProofs.v
theories/MacroSubstProofs.v
theories/RegexProofs.v
theories/PpLexProofs.v
theories/OutBufferProofs.v
theories/PpFacts.v
theories/PpPlainProofs.v
theories/P_C01.v
theories/P_C02.v
theories/P_C03.v
theories/P_C04.v
theories/P_C16.v
theories/PpSpec.v
theories/LexSafeProofs.v
theories/PpParseProofs.v
theories/PpRunProofs.v
theories/PpDbProofs.v
theories/PpMonoProofs.v
theories/PpLimitProofs.v
theories/PpCondProofs.v
theories/PpLineProofs.v
theories/PpCallProofs.v
theories/P_C05.v
theories/P_C06.v
theories/P_C07.v
theories/P_C08.v
theories/P_C09.v
theories/P_C10.v
theories/P_C11.v
theories/P_C12.v
theories/P_C13.v
theories/P_C15.v
theories/P_C50.v
theories/P_C51.v
theories/P_C52.v
theories/P_C53.v
theories/P_C54.v
theories/P_C55.v
theories/EncodingModel.v
theories/EncodingSpec.v
theories/EncodingProofs.v
theories/P_C17.v
theories/P_C18.v
theories/ApiModel.v
theories/ApiSpec.v
theories/ApiProofs.v
theories/P_C19.v
theories/P_C20.v
theories/P_C21.v
theories/AstModel.v
theories/LitModel.v
theories/LitSpec.v
theories/LitProofs.v
theories/P_C22.v
theories/P_C23.v
theories/P_C24.v
theories/P_C25.v
theories/P_C26.v
theories/P_C56.v
theories/P_C57.v
theories/P_C58.v
theories/SvExprModel.v
theories/SvExprSpec.v
theories/SvExprProofs.v
theories/P_C27.v
theories/VhdlExprModel.v
theories/VhdlExprSpec.v
theories/VhdlExprProofs.v
theories/OpModel.v
theories/OpSpec.v
theories/P_C28.v
theories/P_C29.v
theories/P_C37.v
theories/CloneModel.v
theories/CloneSpec.v
theories/CloneProofs.v
theories/P_C30.v
theories/StmModel.v
theories/SvStmModel.v
theories/SvStmSpec.v
theories/SvStmProofs.v
theories/SvStmDemo.v
theories/SvProcProofs.v
theories/SvShapeSpec.v
theories/SvShapeProofs.v
theories/P_C31.v
theories/P_C32.v
theories/P_C33.v
theories/P_C34.v
theories/P_C44.v
theories/P_C59.v
theories/P_C60.v
theories/VhdlStmModel.v
theories/VhdlStmSpec.v
theories/VhdlStmProofs.v
theories/VhdlStmDemo.v
theories/P_C35.v
theories/P_C36.v
theories/P_C38.v
theories/P_C61.v
theories/P_C62.v
theories/SvTypeModel.v
theories/SvDeclModel.v
theories/SvInstSpec.v
theories/SvInstProofs.v
theories/SvDeclSpec.v
theories/SvDeclProofs.v
theories/SvModuleSpec.v
theories/SvModuleProofs.v
theories/P_C39.v
theories/P_C40.v
theories/P_C41.v
theories/P_C42.v
theories/P_C43.v
theories/VhdlDeclModel.v
theories/VhdlDeclSpec.v
theories/VhdlDeclProofs.v
theories/VhdlDecl2Proofs.v
theories/VhdlElabProofs.v
theories/VhdlHierProofs.v
theories/P_C63.v
theories/P_C64.v
theories/P_C65.v
theories/P_C66.v
theories/P_C67.v
theories/P_C68.v
theories/SvImportModel.v
theories/P_C45.v
theories/P_C46.v
theories/CommentModel.v
theories/CommentSpec.v
theories/CommentProofs.v
theories/P_C47.v
theories/PyModel.v
theories/PySpec.v
theories/PyProofs.v
theories/PyStmProofs.v
theories/P_C49.v
theories/P_C69.v
theories/PpArgSpec.v
theories/PpArgProofs.v
theories/P_C14.v
theories/PyDbModel.v
theories/PyDbSpec.v
theories/PyDbProofs.v
theories/P_C48.v
theories/SvTfModel.v
theories/SvTfSpec.v
theories/SvTfProofs.v
theories/P_C70.v
theories/SvGenModel.v
theories/SvGenSpec.v
theories/SvGenProofs.v
theories/P_C71.v
theories/P_C72.v
theories/PyObjModel.v
theories/PyObjSpec.v
theories/PyObjProofs.v
theories/PyOpenProofs.v
theories/PyTreeModel.v
theories/P_C73.v
theories/VhdlFileSpec.v
theories/VhdlFileProofs.v
theories/P_C74.v
theories/SvTypeSpec.v
theories/SvTypeProofs.v
theories/P_C75.v
theories/SvFileModel.v
theories/SvFileSpec.v
theories/SvFileProofs.v
theories/P_C76.v
theories/PySeenSpec.v
theories/PySeenProofs.v
theories/Utf8Proofs.v
theories/VhdlTextSpec.v
theories/VhdlPyProofs.v
theories/VhdlPyProofs2.v
theories/VhdlPyProofs3.v
theories/P_C77.v
theories/PpSrcSpec.v
theories/PpSrcLexProofs.v
theories/PpSrcDirProofs.v
theories/PpSrcBodyProofs.v
theories/PpSrcParseProofs.v
theories/PpSrcTreeProofs.v
theories/PpSrcRunProofs.v
theories/PpSrcWfTac.v
theories/PpSrcEditSpec.v
theories/PpSrcEditProofs.v
theories/P_C78.v
theories/SvSyntaxModel.v
theories/SvSyntaxSpec.v
theories/SvSyntaxProofs.v
theories/SvSyntaxComplete.v
theories/P_C79.v
theories/VhdlSyntaxModel.v
theories/VhdlSyntaxSpec.v
theories/VhdlSyntaxProofs.v
theories/VhdlNormProofs.v
theories/P_C80.v
theories/RegexPairProofs.v
theories/VhdlLexModel.v
theories/VhdlLexSpec.v
theories/VhdlSpellSpec.v
theories/VhdlLexProofs.v
theories/VhdlTokenProofs.v
theories/VhdlPickProofs.v
theories/VhdlQuoteProofs.v
theories/VhdlTextProofs.v
theories/VhdlCoverProofs.v
theories/P_C81.v
theories/SvLexModel.v
theories/SvLexSpec.v
theories/SvSpellSpec.v
theories/SvLexProofs.v
theories/SvWordProofs.v
theories/SvSignProofs.v
theories/SvQuoteProofs.v
theories/SvNumberProofs.v
theories/SvTextProofs.v
theories/SvCoverProofs.v
theories/P_C82.v
theories/SvStmSyntaxModel.v
theories/SvStmSyntaxSpec.v
theories/SvLvalueProofs.v
theories/SvStmSyntaxComplete.v
theories/SvStmSyntaxSound.v
theories/SvStmSpellSpec.v
theories/SvStmTextProofs.v
theories/P_C83.v
theories/VhdlStmSyntaxModel.v
theories/VhdlStmSyntaxSpec.v
theories/VhdlStmSyntaxProofs.v
theories/VhdlStmNormProofs.v
theories/VhdlStmSpellSpec.v
theories/VhdlStmTextProofs.v
theories/P_C84.v
theories/SvModSyntaxModel.v
theories/SvModSyntaxSpec.v
theories/SvModSyntaxComplete.v
theories/SvModReadSpec.v
theories/SvModSyntaxSound.v
theories/SvModSpellSpec.v
theories/SvModTextProofs.v
theories/P_C85.v
theories/ConvertModel.v
theories/ConvertSpec.v
theories/P_C86.v
theories/VhdlUnitSyntaxModel.v
theories/VhdlUnitSyntaxSpec.v
theories/VhdlUnitSyntaxProofs.v
theories/VhdlUnitNormProofs.v
theories/P_C87.v
theories/VhdlLatin1Proofs.v
theories/ConvertVhdlModel.v
theories/ConvertVhdlSpec.v
theories/P_C88.v
theories/VhdlWholeSpec.v
theories/VhdlWholeProofs.v
theories/P_C89.v
theories/VhdlWordsProofs.v
theories/VhdlPrintProofs.v
theories/ConvertPyModel.v
theories/P_C90.v
theories/SvWholeSpec.v
theories/SvWholeProofs.v
theories/P_C91.v
theories/ConvertPySvModel.v
theories/SvPySpec.v
theories/SvPyProofs.v
theories/SvPyProofs2.v
theories/SvPyTextProofs.v
theories/P_C92.v
theories/SvReadSpec.v
theories/SvReadProofs.v
theories/P_C93.v
theories/VhdlReadSpec.v
theories/VhdlReadProofs.v
theories/P_C94.v
theories/SvTypedefModel.v
theories/SvTypedefSpec.v
theories/P_C95.v
theories/PosModel.v
theories/PosSpec.v
theories/PosProofs.v
theories/PosLexProofs.v
theories/P_C96.v
theories/VhdlParseEnds.v
theories/VhdlFileEnds.v
theories/ConvertAllSpec.v
theories/P_C97.v
theories/P_C98.v
theories/PyGivenModel.v
theories/PyGivenSpec.v
theories/PyGivenProofs.v
theories/P_C99.v
theories/CallsSpec.v
theories/CallsProofs.v
theories/P_C100.v
