-Q theories Verif
theories/Base.v
theories/Serial.v
theories/WordTree.v
theories/FlatScan.v
theories/TreeSpec.v
theories/SerialProofs.v
theories/WordTreeProofs.v
theories/FlatScanProofs.v
theories/FlatStack.v
theories/FlatStackProofs.v
theories/Stems.v
theories/StemSpec.v
theories/StemsProofs.v
theories/LidsProofs.v
theories/TrackProofs.v
theories/DictProofs.v
theories/TreeWalk.v
theories/PropTreesLemmas.v
theories/Prop_Trees.v
theories/CharTables.v
theories/CapScheme.v
theories/CapSpec.v
theories/CapProofs.v
theories/CapProofs2.v
theories/CapProofs3.v
theories/CapLengthSpec.v
theories/CapProofs4.v
theories/PropCaseLemmas.v
theories/Prop_Case.v
theories/GramMap.v
theories/RusRuntime.v
theories/LevelSpec.v
theories/LevelProofs.v
theories/RusSpec.v
theories/RusProofs.v
theories/RusProofs2.v
theories/RusProofs3.v
theories/RusDemo.v
theories/GramSpec.v
theories/PropRusLemmas.v
theories/Prop_Rus.v
theories/RusBuild.v
theories/RusBuildSpec.v
theories/RusBuildProofs.v
theories/RusBuildProofs2.v
theories/RusBuildProofs3.v
theories/RusBuildProofs4.v
theories/RusReadings.v
theories/RusReadingsProofs.v
theories/PropBuildLemmas.v
theories/RusDemo2.v
theories/PropBuildLemmas2.v
theories/Prop_Build.v
theories/RusLemmaSpec.v
theories/RusLemmaProofs.v
theories/RusLemmaProofs2.v
theories/RusLemmaProofs3.v
theories/RusLemmaProofs4.v
theories/RusLemmaProofs5.v
theories/RusLemmaProofs6.v
theories/PropLemmasLemmas.v
theories/Prop_Lemmas.v
theories/Wild.v
theories/WildSpec.v
theories/WildProofs.v
theories/WildProofs2.v
theories/WildProofs3.v
theories/WildProofs4.v
theories/PropWildLemmas.v
theories/Prop_Wild.v
theories/Compile.v
theories/CompileSpec.v
theories/CompileProofs.v
theories/CompileProofs2.v
theories/CompileProofs3.v
theories/CompileProofs4.v
theories/CompileProofs5.v
theories/Resolve.v
theories/ResolveSpec.v
theories/ResolveProofs.v
theories/ResolveProofs2.v
theories/CompileDemo.v
theories/PropCompileLemmas.v
theories/Prop_Compile.v
theories/Fuzzy.v
theories/FuzzySpec.v
theories/FuzzyProofs.v
theories/FuzzyProofs2.v
theories/FuzzyProofs3.v
theories/FuzzyProofs4.v
theories/FuzzyProofs5.v
theories/FuzzyProofs6.v
theories/PropFuzzyLemmas.v
theories/Prop_Fuzzy.v
theories/EngRuntime.v
theories/EngSpec.v
theories/EngProofs.v
theories/EngProofs2.v
theories/EngFormsSpec.v
theories/EngBuildProofs.v
theories/EngReadingsProofs.v
theories/EngLemmaSpec.v
theories/EngLemmaProofs.v
theories/EngDemo.v
theories/EngRecognised.v
theories/PropEngLemmas.v
theories/Prop_Eng.v
theories/EngLemmaProofs2.v
theories/EngLemmaProofs3.v
theories/EngLemmaProofs4.v
theories/EngLemmaProofs5.v
theories/EngLemmaProofs6.v
theories/PropEngLemmas2.v
theories/Prop_EngLemmas.v
theories/Api.v
theories/ApiSpec.v
theories/PropApiLemmas.v
theories/Prop_Api.v
theories/EngCompile.v
theories/EngCompileSpec.v
theories/EngCompileProofs.v
theories/EngCompileProofs2.v
theories/EngCompileProofs3.v
theories/EngCompileProofs4.v
theories/EngCompileProofs5.v
theories/EngCompileProofs6.v
theories/EngCompileProofs7.v
theories/PropEngCompileLemmas.v
theories/Prop_EngCompile.v
theories/EngWild.v
theories/EngWildSpec.v
theories/EngWildProofs.v
theories/EngWildProofs2.v
theories/PropEngWildLemmas.v
theories/Prop_EngWild.v
theories/CxxApi.v
theories/CxxSpec.v
theories/CxxProofs.v
theories/CxxProofs2.v
theories/CxxProofs3.v
theories/CxxProofs4.v
theories/CxxProofs5.v
theories/PropCxxLemmas.v
theories/Prop_Cxx.v
theories/Codepage.v
theories/CodepageSpec.v
theories/Utf8.v
theories/CodepageProofs.v
theories/CodepageProofs2.v
theories/CodepageProofs3.v
theories/CodepageProofs4.v
theories/CodepageProofs5.v
theories/CodepageProofs6.v
theories/CodepageProofs7.v
theories/CodepageProofs8.v
theories/PropCodepageLemmas.v
theories/Prop_Codepage.v
theories/WideApi.v
theories/WideSpec.v
theories/WideProofs.v
theories/WideProofs2.v
theories/WideProofs3.v
theories/WideProofs4.v
theories/WideProofs5.v
theories/PropWideLemmas.v
theories/Prop_Wide.v
theories/CompileFormsSpec.v
theories/CompileProofs6.v
theories/CompileProofs7.v
theories/CompileProofs8.v
theories/CompileProofs9.v
theories/CompileDemo2.v
theories/PropCompileFormsLemmas.v
theories/Prop_CompileForms.v
theories/Guess.v
theories/GuessRus.v
theories/GuessSpec.v
theories/GuessProofs.v
theories/GuessProofs2.v
theories/GuessProofs3.v
theories/PropGuessLemmas.v
theories/Prop_Guess.v
theories/GuessWide.v
theories/GuessWideSpec.v
theories/GuessWideProofs.v
theories/Prop_GuessWide.v
theories/RusText.v
theories/RusTextSpec.v
theories/RusTextProofs.v
theories/RusTextProofs2.v
theories/RusTextProofs3.v
theories/RusTextProofs4.v
theories/RusTextProofs5.v
theories/RusTextProofs6.v
theories/RusTextDemo.v
theories/StripSpec.v
theories/StripProofs.v
theories/StripProofs2.v
theories/StripProofs3.v
theories/PropRusTextLemmas.v
theories/Prop_RusText.v
theories/Tfc.v
theories/TfcSpec.v
theories/TfcProofs.v
theories/TfcProofs2.v
theories/TfcProofs3.v
theories/TfcProofs4.v
theories/TfcProofs5.v
theories/TfcProofs6.v
theories/TfcDemo.v
theories/PropTfcLemmas.v
theories/Prop_Tfc.v
theories/Makeich.v
theories/MakeichSpec.v
theories/MakeichProofs.v
theories/MakeichProofs2.v
theories/MakeichProofs3.v
theories/MakeichProofs4.v
theories/MakeichDemo.v
theories/PropMakeichLemmas.v
theories/Prop_Makeich.v
theories/DictTextSpec.v
theories/DictTextProofs.v
theories/DictTextProofs2.v
theories/DictTextProofs3.v
theories/PropDictTextLemmas.v
theories/DictTextDemo.v
theories/Prop_DictText.v
theories/DictFormsSpec.v
theories/DictFormsProofs.v
theories/PropDictFormsLemmas.v
theories/DictFormsDemo.v
theories/Prop_DictForms.v
theories/PyApi.v
theories/PySpec.v
theories/PyProofs.v
theories/PyProofs2.v
theories/PyProofs3.v
theories/PyProofs4.v
theories/PyProofs5.v
theories/Prop_Py.v
theories/Dump.v
theories/DumpSpec.v
theories/DumpSpec2.v
theories/DumpProofs.v
theories/DumpProofs2.v
theories/DumpProofs3.v
theories/DumpProofs4.v
theories/DumpProofs5.v
theories/PropDumpLemmas.v
theories/Prop_Dump.v
theories/Holes.v
theories/HolesSpec.v
theories/HolesProofs.v
theories/HolesProofs2.v
theories/HolesProofs3.v
theories/Prop_Holes.v
theories/Dicdump.v
theories/DicdumpSpec.v
theories/DicdumpProofs.v
theories/DicdumpProofs2.v
theories/DicdumpProofs3.v
theories/DicdumpBuild.v
theories/DicdumpBuildSpec.v
theories/DicdumpProofs4.v
theories/DicdumpProofs5.v
theories/PropDicdumpLemmas.v
theories/Prop_Dicdump.v
theories/LemmTool.v
theories/LemmToolSpec.v
theories/LemmToolProofs.v
theories/LemmToolProofs2.v
theories/LemmToolProofs3.v
theories/LemmToolProofs4.v
theories/Prop_LemmTool.v
theories/PspTab.v
theories/PspTabSpec.v
theories/PspTabProofs.v
theories/PspTabProofs2.v
theories/PspTabProofs3.v
theories/PspTabProofs4.v
theories/Prop_PspTab.v
theories/StemTool.v
theories/StemToolSpec.v
theories/StemToolProofs.v
theories/StemToolProofs2.v
theories/Prop_StemTool.v
theories/Letters.v
theories/LettersSpec.v
theories/LettersProofs.v
theories/Prop_Letters.v
theories/Tasks.v
theories/TasksSpec.v
theories/TasksProofs.v
theories/Prop_Tasks.v
theories/FivesSpec.v
theories/FivesProofs.v
theories/Prop_Fives.v
theories/Wildcards.v
theories/Prop_Wildcards.v
