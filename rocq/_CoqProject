-Q theories Verif
theories/Base.v
theories/M_Addargs.v
theories/M_Arena.v
theories/M_Array.v
theories/M_Backend.v
theories/M_Build.v
theories/M_Canon.v
theories/M_Compile.v
theories/M_Config.v
theories/M_Custom.v
theories/M_Depfile.v
theories/M_Deps.v
theories/M_Dest.v
theories/M_Dict.v
theories/M_Env.v
theories/M_Environ.v
theories/M_Escape.v
theories/M_Feature.v
theories/M_Findprog.v
theories/M_Flags.v
theories/M_Fmt.v
theories/M_Format.v
theories/M_Formats.v
theories/M_Fs.v
theories/M_Glob.v
theories/M_Hash.v
theories/M_Htab.v
theories/M_Install.v
theories/M_Interp.v
theories/M_Lexer.v
theories/M_Link.v
theories/M_Log.v
theories/M_Lookup.v
theories/M_Manifest.v
theories/M_Memmem.v
theories/M_Names.v
theories/M_Options.v
theories/M_Parser.v
theories/M_Path.v
theories/M_Pkgconf.v
theories/M_Provides.v
theories/M_Rpath.v
theories/M_Sbuf.v
theories/M_Serial.v
theories/M_Sha.v
theories/M_SourceSet.v
theories/M_Str.v
theories/M_Subproject.v
theories/M_Test.v
theories/M_Toolchain.v
theories/M_Tree.v
theories/M_Types.v
theories/M_Version.v
theories/M_Wrap.v
theories/S_Addargs.v
theories/S_Arena.v
theories/S_Array.v
theories/S_Backend.v
theories/S_Build.v
theories/S_Compile.v
theories/S_Config.v
theories/S_Custom.v
theories/S_Depfile.v
theories/S_Deps.v
theories/S_Dest.v
theories/S_Dict.v
theories/S_Env.v
theories/S_Environ.v
theories/S_Escape.v
theories/S_Feature.v
theories/S_Findprog.v
theories/S_Flags.v
theories/S_Fmt.v
theories/S_Format.v
theories/S_Formats.v
theories/S_Fs.v
theories/S_Glob.v
theories/S_Hash.v
theories/S_Htab.v
theories/S_Install.v
theories/S_Interp.v
theories/S_Lexer.v
theories/S_Link.v
theories/S_Log.v
theories/S_Lookup.v
theories/S_Manifest.v
theories/S_Memmem.v
theories/S_Names.v
theories/S_Options.v
theories/S_Parser.v
theories/S_Path.v
theories/S_Pkgconf.v
theories/S_Print.v
theories/S_Provides.v
theories/S_Rpath.v
theories/S_Sbuf.v
theories/S_Serial.v
theories/S_Sha.v
theories/S_SourceSet.v
theories/S_Str.v
theories/S_Subproject.v
theories/S_Test.v
theories/S_Toolchain.v
theories/S_Tree.v
theories/S_Types.v
theories/S_Version.v
theories/S_Wrap.v
theories/L_An.v
theories/L_Arena.v
theories/L_Args.v
theories/L_Array.v
theories/L_Backend.v
theories/L_Blocks.v
theories/L_Build.v
theories/L_BuildFile.v
theories/L_Call.v
theories/L_Canon.v
theories/L_Compile.v
theories/L_Config.v
theories/L_Custom.v
theories/L_Depfile.v
theories/L_Deps.v
theories/L_Dest.v
theories/L_Dict.v
theories/L_Dump.v
theories/L_Effects.v
theories/L_Env.v
theories/L_Environ.v
theories/L_Escape.v
theories/L_Eval.v
theories/L_Findprog.v
theories/L_Flags.v
theories/L_Fmt.v
theories/L_FmtDry.v
theories/L_FmtSame.v
theories/L_Format.v
theories/L_Formats.v
theories/L_Fs.v
theories/L_Glob.v
theories/L_Hash.v
theories/L_Htab.v
theories/L_Install.v
theories/L_Interp.v
theories/L_LexBuf.v
theories/L_Lexer.v
theories/L_Link.v
theories/L_Log.v
theories/L_Lookup.v
theories/L_Manifest.v
theories/L_ManifestEnds.v
theories/L_Meaning.v
theories/L_Memmem.v
theories/L_Mono.v
theories/L_Names.v
theories/L_Naming.v
theories/L_Ninja.v
theories/L_Options.v
theories/L_Parser.v
theories/L_Path.v
theories/L_Path2.v
theories/L_Path3.v
theories/L_Pkgconf.v
theories/L_Pkgvars.v
theories/L_Places.v
theories/L_Print.v
theories/L_Provides.v
theories/L_Rpath.v
theories/L_Rules.v
theories/L_Sbuf.v
theories/L_Sched.v
theories/L_Scope.v
theories/L_Serial.v
theories/L_Sha.v
theories/L_Sound.v
theories/L_Source.v
theories/L_SourceSet.v
theories/L_Sources.v
theories/L_Spelling.v
theories/L_Statements.v
theories/L_Str.v
theories/L_Strs.v
theories/L_Suffix.v
theories/L_Test.v
theories/L_Toolchain.v
theories/L_Tree.v
theories/L_Types.v
theories/L_Vars.v
theories/L_Version.v
theories/L_Words.v
theories/L_Wrap.v
theories/P_Addargs.v
theories/P_Arena.v
theories/P_Array.v
theories/P_Backend.v
theories/P_Build.v
theories/P_Canon.v
theories/P_Compile.v
theories/P_Config.v
theories/P_Custom.v
theories/P_Depfile.v
theories/P_Deps.v
theories/P_Dest.v
theories/P_Dict.v
theories/P_Env.v
theories/P_Environ.v
theories/P_Equal.v
theories/P_Escape.v
theories/P_Feature.v
theories/P_Findprog.v
theories/P_Flags.v
theories/P_Fmt.v
theories/P_Format.v
theories/P_Formats.v
theories/P_Fs.v
theories/P_Glob.v
theories/P_Hash.v
theories/P_Htab.v
theories/P_Install.v
theories/P_Lexer.v
theories/P_Link.v
theories/P_Log.v
theories/P_Logic.v
theories/P_Lookup.v
theories/P_Loop.v
theories/P_Manifest.v
theories/P_Memmem.v
theories/P_Names.v
theories/P_Ninja.v
theories/P_Options.v
theories/P_Parser.v
theories/P_Path.v
theories/P_Pkgconf.v
theories/P_Provides.v
theories/P_Rpath.v
theories/P_Sbuf.v
theories/P_Scope.v
theories/P_Serial.v
theories/P_Sha.v
theories/P_SourceSet.v
theories/P_Str.v
theories/P_Subproject.v
theories/P_Test.v
theories/P_Toolchain.v
theories/P_Tree.v
theories/P_Types.v
theories/P_Version.v
theories/P_Wrap.v
