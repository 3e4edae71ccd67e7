-Q theories Verif
theories/Strings.v
theories/StringsFacts.v
theories/Token.v
theories/Iter.v
theories/Lexer.v
theories/Parser.v
theories/SanitizeFacts.v
theories/LexerFacts.v
theories/DetailsFacts.v
theories/SpecRobust.v
theories/DetailsBody.v
theories/LexMono.v
theories/Master.v
theories/NoPanic.v
theories/Termination.v
theories/Outcome.v
theories/OutputFacts.v
theories/PropertiesRobust.v
theories/Html.v
theories/HtmlFacts.v
theories/LinkFacts.v
theories/Safety.v
theories/Exec.v
theories/SafeClasses.v
theories/RawHtml.v
theories/Decode.v
theories/DecodeFacts.v
theories/Balance.v
theories/Nesting.v
theories/PropertiesSafe.v
theories/Markdown.v
theories/MarkdownFacts.v
theories/MarkdownBlocks.v
theories/MarkdownLists.v
theories/MarkdownTables.v
theories/MarkdownSound.v
theories/SpecText.v
theories/TextFacts.v
theories/PropertiesText.v
theories/SpecBlocks.v
theories/BlockFacts.v
theories/SpecGfm.v
theories/GfmFacts.v
theories/PropertiesGfm.v
theories/PropertiesBlocks.v
theories/Utf8.v
theories/IterBytes.v
theories/IterBytesFacts.v
theories/PropertiesIter.v
theories/System.v
theories/Config.v
theories/Url.v
theories/Cli.v
theories/SpecCli.v
theories/SystemFacts.v
theories/CliFacts.v
theories/CliMain.v
theories/UrlFacts.v
theories/CliRuns.v
theories/ConfigFacts.v
theories/Concurrent.v
theories/CliProps.v
theories/SpecPage.v
theories/BeginFacts.v
theories/UrlProps.v
theories/PropertiesCli.v
theories/PropertiesUrl.v
theories/Logger.v
theories/LoggerFacts.v
theories/Npm.v
theories/NpmFacts.v
theories/Args.v
theories/ArgsFacts.v
theories/Clap.v
theories/SpecArgs.v
theories/ClapFacts.v
theories/Filter.v
theories/SpecLog.v
theories/FilterFacts.v
theories/ArgsProps.v
theories/PropertiesArgs.v
theories/PropertiesTools.v
theories/SizeLex.v
theories/SizeFacts.v
theories/Work.v
theories/WorkFacts.v
theories/Depth.v
theories/PropertiesSize.v
theories/Release.v
theories/SpecRelease.v
theories/ReleaseFacts.v
theories/ReleaseProps.v
theories/NumberFacts.v
theories/PropertiesRelease.v
theories/Suite.v
theories/Ci.v
theories/SpecCi.v
theories/CiFacts.v
theories/Generate.v
theories/GenerateFacts.v
theories/PropertiesCi.v
theories/Alike.v
theories/Lead.v
theories/MetaFacts.v
theories/Local.v
theories/Sections.v
theories/Final.v
theories/Dos.v
theories/Behind.v
theories/PropertiesMeta.v
theories/Shell.v
theories/ShellFacts.v
theories/Jobs.v
theories/JobsFacts.v
theories/PropertiesJobs.v
theories/Cliff.v
theories/CliffData.v
theories/SpecCliff.v
theories/CliffFacts.v
theories/PropertiesCliff.v
theories/Prepare.v
theories/SpecPrepare.v
theories/PrepareFacts.v
theories/TagMessage.v
theories/SpecTag.v
theories/TagFacts.v
theories/PropertiesPrepare.v
theories/PropertiesTag.v
theories/SpecSyntax.v
theories/SyntaxFacts.v
theories/PropertiesSyntax.v
theories/Platform.v
theories/SpecJson.v
theories/PlatformFacts.v
theories/PropertiesPlatform.v
theories/Latest.v
theories/LatestFacts.v
theories/PropertiesLatest.v
theories/Codec.v
theories/CodecFacts.v
theories/PropertiesCodec.v
theories/Ignore.v
theories/SpecIgnore.v
theories/IgnoreFacts.v
theories/PropertiesIgnore.v
theories/NpmBuild.v
theories/NpmBuildFacts.v
theories/PropertiesNpmBuild.v
theories/Python.v
theories/SpecPython.v
theories/PythonFacts.v
theories/PropertiesPython.v
theories/TabFacts.v
theories/PropertiesTab.v
theories/BomFacts.v
theories/PropertiesBom.v
theories/CharFacts.v
theories/PropertiesChar.v
theories/LinkNotes.v
theories/PropertiesLink.v
