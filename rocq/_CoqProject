-Q theories Verif
theories/Model/Outcome.v
theories/Model/Bytes.v
theories/Model/Utf8.v
theories/Model/Shlex.v
theories/Model/Base64.v
theories/Model/Hex.v
theories/Model/IntText.v
theories/Model/Sha512.v
theories/Model/Aes.v
theories/Model/Gcm.v
theories/Model/Float64.v
theories/Model/Value.v
theories/Model/Partial.v
theories/Model/Tree.v
theories/Model/MapCrypt.v
theories/Model/Mac.v
theories/Model/Format.v
theories/Tests/KatMap.v
theories/Spec/SpecValue.v
theories/Spec/SpecShell.v
theories/Spec/SpecMap.v
theories/Spec/SpecHistory.v
theories/Spec/SpecFormat.v
theories/Proofs/BytesFacts.v
theories/Proofs/Base64Facts.v
theories/Proofs/IntFacts.v
theories/Proofs/FloatFacts.v
theories/Proofs/RoundFacts.v
theories/Proofs/ShortestFacts.v
theories/Proofs/Utf8Facts.v
theories/Proofs/ShellFacts.v
theories/Proofs/Base64Spec.v
theories/Proofs/GcmFacts.v
theories/Proofs/ValueFacts.v
theories/Proofs/TreeFacts.v
theories/Proofs/MapFacts.v
theories/Proofs/NonceFacts.v
theories/Proofs/MacFacts.v
theories/Proofs/FormatFacts.v
theories/Proofs/FormatEnc.v
theories/Props/PValue.v
theories/Props/PMap.v
theories/Props/PFormat.v
theories/Model/Aws.v
theories/Model/Timestamp.v
theories/Model/Integration.v
theories/Model/File.v
theories/Model/Document.v
theories/Model/Json.v
theories/Model/Chrono.v
theories/Proofs/JsonFloat.v
theories/Proofs/JsonScale.v
theories/Proofs/JsonExact.v
theories/Proofs/JsonError.v
theories/Proofs/JsonNumber.v
theories/Proofs/JsonFacts.v
theories/Proofs/JsonGrammar.v
theories/Proofs/JsonTotal.v
theories/Proofs/JsonPrefix.v
theories/Proofs/ChronoFacts.v
theories/Spec/SpecAws.v
theories/Spec/SpecFile.v
theories/Spec/SpecFileHistory.v
theories/Spec/SpecDocument.v
theories/Spec/SpecSops.v
theories/Spec/SpecConfig.v
theories/Spec/SpecTime.v
theories/Spec/SpecJson.v
theories/Spec/SpecJsonText.v
theories/Proofs/AwsFacts.v
theories/Proofs/IntegrationFacts.v
theories/Proofs/TimestampFacts.v
theories/Proofs/FileFacts.v
theories/Proofs/FileSafety.v
theories/Proofs/FileKeys.v
theories/Proofs/DocumentFacts.v
theories/Proofs/DocumentFile.v
theories/Proofs/DocumentSops.v
theories/Props/PAws.v
theories/Props/ExWorld.v
theories/Props/PIntegration.v
theories/Props/PFile.v
theories/Props/ExCodec.v
theories/Props/PDocument.v
theories/Props/PJson.v
theories/Model/Os.v
theories/Model/Config.v
theories/Model/Cli.v
theories/Model/Args.v
theories/Model/Script.v
theories/Spec/SpecPath.v
theories/Spec/SpecCli.v
theories/Proofs/LossyFacts.v
theories/Proofs/CliPath.v
theories/Proofs/ScriptFacts.v
theories/Proofs/EditorFacts.v
theories/Proofs/CliRun.v
theories/Spec/SpecConcurrent.v
theories/Spec/SpecDepends.v
theories/Spec/SpecAbort.v
theories/Spec/SpecArgs.v
theories/Proofs/ArgsFacts.v
theories/Proofs/CliAbort.v
theories/Proofs/JsonHeld.v
theories/Proofs/RepeatFacts.v
theories/Proofs/CliDoes.v
theories/Proofs/Concurrent.v
theories/Proofs/SameFile.v
theories/Proofs/Turns.v
theories/Proofs/Depends.v
theories/Proofs/NormalAgain.v
theories/Proofs/CliDoc.v
theories/Props/PCli.v
theories/Spec/SpecReveal.v
theories/Proofs/Reveal.v
theories/Spec/SpecAccess.v
theories/Proofs/Access.v
theories/Props/PAbort.v
theories/Proofs/SopsFacts.v
theories/Props/PEditor.v
theories/Props/PSops.v
theories/Props/PJsonText.v
theories/Props/PConfig.v
theories/Props/PPath.v
theories/Props/PArgs.v
theories/Props/PCliDoc.v
theories/Model/Main.v
theories/Props/PMain.v
theories/Props/PJsonAbort.v
theories/Props/PConcurrent.v
theories/Props/PTurns.v
theories/Props/PDepends.v
theories/Props/PSame.v
theories/Props/PAgain.v
theories/Props/PJsonCli.v
theories/Props/PReveal.v
theories/Props/PAccess.v
