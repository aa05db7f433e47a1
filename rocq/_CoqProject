-Q theories Verif
theories/Base.v
theories/BaseFacts.v
theories/Token.v
theories/Spec.v
theories/Lex.v
theories/LexFacts.v
theories/LexSpec.v
theories/LexClass.v
theories/Stream.v
theories/StreamFacts.v
theories/SnapMap.v
theories/SnapFacts.v
theories/Macro.v
theories/MacroSpec.v
theories/MacroFacts.v
theories/MacroSteps.v
theories/MacroUse.v
theories/MacroDefs.v
theories/Glob.v
theories/GlobTests.v
theories/Syntax.v
theories/Builder.v
theories/ArgMatch.v
theories/Parser.v
theories/Converter.v
theories/DefaultSpec.v
theories/Api.v
theories/Cli.v
theories/Conformance.v
theories/P_Lex.v
theories/P_Stream.v
theories/P_Scope.v
theories/MacroInv.v
theories/MacroTerm.v
theories/P_Macro.v
theories/P_Macro2.v
theories/GlobFacts.v
theories/P_Glob.v
theories/P_Misc.v
theories/ParserWp.v
theories/ParserText.v
theories/TreeSpec.v
theories/ParserShape.v
theories/ParserTotal.v
theories/ParserSim.v
theories/MacroProv.v
theories/ParserSource.v
theories/ParserEnd.v
theories/P_Parser.v
theories/ConvSpec.v
theories/ConvFacts.v
theories/ConvTerm.v
theories/ConvSeen.v
theories/ConvAlike.v
theories/P_Conv.v
theories/P_Conv2.v
theories/P_Conv3.v
theories/ParserDelim.v
theories/P_Conv4.v
theories/ParserComment.v
theories/MacroComment.v
theories/P_Comment.v
theories/ParserPlain.v
theories/P_Text.v
theories/DocSpec.v
theories/DocConv.v
theories/DocParse.v
theories/P_Doc.v
theories/PairSpec.v
theories/P_Pair.v
theories/GramSpec.v
theories/GramSound.v
theories/GramComplete.v
theories/P_Gram.v
theories/DelimSpec.v
theories/LexDelim.v
theories/P_Delim.v
theories/ExpandSpec.v
theories/ExpandFacts.v
theories/ExpandStep.v
theories/ExpandStuck.v
theories/MacroPanic.v
theories/P_Expand.v
theories/RenderSpec.v
theories/RenderFacts.v
theories/RenderText.v
theories/RenderStep.v
theories/RenderMain.v
theories/RenderAll.v
theories/P_Render.v
theories/P_Path.v
theories/P_Flat.v
theories/P_Wild.v
theories/P_Class.v
theories/CliRun.v
theories/P_Crash.v
theories/Decode.v
theories/Prelude.v
theories/P_Decode.v
theories/StandardDefs.v
theories/P_Names.v
theories/PatternSim.v
theories/P_Pattern.v
theories/P_Views.v
theories/GlobCaps.v
theories/CapFacts.v
theories/P_Captures.v
theories/NestSpec.v
theories/NestFacts.v
theories/NestLeaf.v
theories/NestMain.v
theories/NestStep.v
theories/NestAll.v
theories/NestCode.v
theories/P_Nest.v
theories/ShieldSpec.v
theories/ShieldFacts.v
theories/ShieldSwap.v
theories/P_Shield.v
theories/P_Shield2.v
theories/HideSpec.v
theories/HideFacts.v
theories/HideStep.v
theories/P_Hide.v
theories/SpaceSpec.v
theories/SpaceFacts.v
theories/SpaceStep.v
theories/P_Space.v
theories/SizeSpec.v
theories/SizeFacts.v
theories/SizeStep.v
theories/SizeAll.v
theories/P_Size.v
theories/P_Blowup.v
theories/P_Rename.v
theories/FormulaSpec.v
theories/FormulaFacts.v
theories/P_Formula.v
theories/P_Braces.v
theories/P_Place.v
theories/P_Twice.v
