-Q theories Verif
theories/Model/Base.v
theories/Model/PluralForms.v
theories/Model/Log.v
theories/Model/Dictionary.v
theories/Model/IConv.v
theories/Model/LanguageTable.v
theories/Model/Language.v
theories/Model/Stream.v
theories/Model/PoParser.v
theories/Model/Manager.v
theories/Model/Owner.v
theories/Model/Callbacks.v
theories/Model/Client.v
theories/Model/Programs.v
theories/Model/LazyInit.v
theories/Spec/PluralSpec.v
theories/Proofs/BaseFacts.v
theories/Proofs/PluralProofs.v
theories/Properties/Plural.v
theories/Spec/DictSpec.v
theories/Proofs/DictProofs.v
theories/Properties/Dictionary.v
theories/Spec/LangSpec.v
theories/Proofs/LangProofs.v
theories/Properties/Language.v
theories/Spec/LogSpec.v
theories/Spec/IConvSpec.v
theories/Proofs/IConvProofs.v
theories/Spec/ParserSpec.v
theories/Spec/PoSpec.v
theories/Spec/SoundSpec.v
theories/Spec/DamageSpec.v
theories/Spec/DiagSpec.v
theories/Spec/FullSpec.v
theories/Spec/RunSpec.v
theories/Spec/ReadSpec.v
theories/Spec/ManagerSpec.v
theories/Spec/ClientSpec.v
theories/Spec/OwnerSpec.v
theories/Spec/CallbackSpec.v
theories/Spec/TextSpec.v
theories/Spec/LoadSpec.v
theories/Spec/ShelfSpec.v
theories/Proofs/LexProofs.v
theories/Proofs/ParserUnary.v
theories/Proofs/DocLex.v
theories/Proofs/ParserRel.v
theories/Proofs/ParserSafe.v
theories/Proofs/ParserFuel.v
theories/Proofs/ParserLocal.v
theories/Proofs/ParserCut.v
theories/Proofs/ParserBlank.v
theories/Proofs/ParserTerm.v
theories/Proofs/ParserLines.v
theories/Proofs/ParserLinewise.v
theories/Proofs/ParserMisc.v
theories/Proofs/ParserProper.v
theories/Proofs/ManagerLoad.v
theories/Proofs/ManagerOwn.v
theories/Proofs/ManagerGet.v
theories/Proofs/ManagerStep.v
theories/Proofs/ManagerFull.v
theories/Proofs/ManagerContent.v
theories/Proofs/DocProofs.v
theories/Proofs/DocLoop.v
theories/Proofs/DocSound.v
theories/Proofs/DocComplaint.v
theories/Proofs/DocExact.v
theories/Proofs/DocUnique.v
theories/Proofs/DocOpen.v
theories/Proofs/DocTop.v
theories/Proofs/DocLog.v
theories/Proofs/ParserSaid.v
theories/Proofs/ParserPedantic.v
theories/Proofs/ParserBreak.v
theories/Proofs/DocEnd.v
theories/Proofs/DocDamage.v
theories/Proofs/DocText.v
theories/Proofs/Numbers.v
theories/Proofs/DocFull.v
theories/Proofs/DocRun.v
theories/Proofs/ParserAscii.v
theories/Proofs/ParserStrict.v
theories/Proofs/DocUb.v
theories/Properties/Document.v
theories/Properties/Sound.v
theories/Properties/Diagnostics.v
theories/Properties/Parser.v
theories/Properties/LogIConv.v
theories/Properties/LazyInit.v
theories/Proofs/ManagerProps.v
theories/Proofs/ManagerLog.v
theories/Properties/Manager.v
theories/Proofs/ManagerSafe.v
theories/Proofs/ManagerFiles.v
theories/Properties/ManagerLife.v
theories/Properties/ManagerFiles.v
theories/Properties/ManagerLog.v
theories/Properties/Damage.v
theories/Properties/NoNewline.v
theories/Proofs/Shelf.v
theories/Proofs/ManagerFuel.v
theories/Properties/EndToEnd.v
theories/Properties/Hang.v
theories/Properties/Full.v
theories/Properties/Run.v
theories/Proofs/ClientProofs.v
theories/Properties/Client.v
theories/Proofs/OwnerProofs.v
theories/Properties/Owner.v
theories/Properties/Callbacks.v
theories/Properties/Text.v
theories/Properties/ReadError.v
theories/Spec/CharsetSpec.v
theories/Proofs/Charsets.v
theories/Proofs/CharsetShelf.v
theories/Properties/Charsets.v
theories/Spec/ProgramSpec.v
theories/Proofs/Programs.v
theories/Properties/Programs.v
theories/Model/Memory.v
theories/Spec/MemorySpec.v
theories/Proofs/MemoryProofs.v
theories/Properties/Memory.v
theories/Model/Reentrant.v
theories/Spec/ReentrantSpec.v
theories/Proofs/ReentrantProofs.v
theories/Proofs/ReentrantBad.v
theories/Properties/Reentrant.v
theories/Validation/Corpus.v
theories/Validation/TestRuns.v
theories/Spec/SizeSpec.v
theories/Proofs/SizeProofs.v
theories/Proofs/LogSize.v
theories/Properties/Size.v
theories/Model/Tables.v
theories/Spec/TablesSpec.v
theories/Proofs/TablesProofs.v
theories/Properties/Tables.v
theories/Model/Exhaustion.v
theories/Spec/ExhaustionSpec.v
theories/Proofs/ExhaustionProofs.v
theories/Proofs/ExhaustionRun.v
theories/Properties/Exhaustion.v
theories/Model/Threads.v
theories/Spec/ThreadsSpec.v
theories/Proofs/ThreadsProofs.v
theories/Proofs/ThreadsMore.v
theories/Proofs/ThreadsBad.v
theories/Proofs/ThreadsSet.v
theories/Proofs/ThreadsHonest.v
theories/Properties/Threads.v
theories/Model/Enumerate.v
theories/Spec/EnumerateSpec.v
theories/Proofs/EnumerateProofs.v
theories/Properties/Enumerate.v
theories/Model/Nested.v
theories/Spec/NestedSpec.v
theories/Properties/Nested.v
theories/Model/Sdl.v
theories/Spec/SdlSpec.v
theories/Proofs/TwoConverters.v
theories/Properties/Sdl.v
theories/Model/Widths.v
theories/Spec/WidthsSpec.v
theories/Proofs/WidthsProofs.v
theories/Proofs/WidthsLower.v
theories/Properties/Widths.v
theories/Model/Learn.v
theories/Spec/LearnSpec.v
theories/Proofs/LearnProofs.v
theories/Properties/Learn.v
theories/Model/Masked.v
theories/Model/MaskedManager.v
theories/Spec/MaskedSpec.v
theories/Proofs/MaskedLock.v
theories/Proofs/MaskedFuel.v
theories/Proofs/MaskedProofs.v
theories/Proofs/MaskedBlank.v
theories/Spec/MaskedManagerSpec.v
theories/Proofs/MaskedManager.v
theories/Proofs/MaskedFiles.v
theories/Properties/Masked.v
theories/Properties/MaskedManager.v
theories/Proofs/LangMenu.v
theories/Properties/Menu.v
theories/Spec/OrderSpec.v
theories/Proofs/DirOrder.v
theories/Properties/DirOrder.v
theories/Properties/Hidden.v
