-Q theories Verif
theories/Base.v
theories/Model/Base64.v
theories/Spec/Base64.v
theories/Proofs/Base64Proofs.v
theories/Props/C01.v
theories/Props/C02.v
theories/Props/C03.v
theories/Model/Utf8.v
theories/Proofs/Utf8Proofs.v
theories/Props/C04.v
theories/Props/C05.v
theories/Props/C06.v
theories/Spec/Utf8.v
theories/Model/Int.v
theories/Model/Str.v
theories/Model/Search.v
theories/Model/Chars.v
theories/Model/Numeral.v
theories/Spec/Numeral.v
theories/Model/NumStr.v
theories/Proofs/NumeralProofs.v
theories/Proofs/NumStrProofs.v
theories/Props/C07.v
theories/Props/C08.v
theories/Props/C09.v
theories/Props/C10.v
theories/Props/C11.v
theories/Props/C12.v
theories/Props/C13.v
theories/Props/C61.v
theories/Model/Text.v
theories/Spec/Search.v
theories/Spec/Text.v
theories/Proofs/SearchProofs.v
theories/Proofs/TextProofs.v
theories/Proofs/StrProofs.v
theories/Proofs/DiffProofs.v
theories/Props/C15.v
theories/Props/C16.v
theories/Props/C17.v
theories/Props/C18.v
theories/Props/C19.v
theories/Props/C20.v
theories/Props/C21.v
theories/Props/C22.v
theories/Props/C23.v
theories/Props/C24.v
theories/Props/C25.v
theories/Props/C26.v
theories/Props/C27.v
theories/Props/C28.v
theories/Props/C59.v
theories/Props/C62.v
theories/Props/C63.v
theories/Props/C64.v
theories/Props/C65.v
theories/Props/C66.v
theories/Props/C67.v
theories/Model/Reader.v
theories/Spec/Reader.v
theories/Proofs/ReaderProofs.v
theories/Props/C29.v
theories/Model/ParseString.v
theories/Spec/ParseString.v
theories/Proofs/ParseStringProofs.v
theories/Props/C30.v
theories/Model/StringBuf.v
theories/Spec/StringBuf.v
theories/Proofs/StringBufProofs.v
theories/Props/C14.v
theories/Model/Array.v
theories/Spec/Array.v
theories/Proofs/ArrayProofs.v
theories/Props/C38.v
theories/Model/Hashmap.v
theories/Model/Iterator.v
theories/Model/Hashset.v
theories/Spec/Hashmap.v
theories/Spec/Hashset.v
theories/Proofs/BucketProofs.v
theories/Proofs/IteratorProofs.v
theories/Proofs/HashmapProofs.v
theories/Proofs/HashsetProofs.v
theories/Props/C31.v
theories/Props/C32.v
theories/Props/C33.v
theories/Props/C34.v
theories/Props/C36.v
theories/Model/RelHashmap.v
theories/Spec/RelHashmap.v
theories/Proofs/RelHashmapProofs.v
theories/Props/C35.v
theories/Props/C37.v
theories/Model/LinkedList.v
theories/Spec/LinkedList.v
theories/Proofs/LinkedListProofs.v
theories/Props/C39.v
theories/Model/MergeSort.v
theories/Spec/MergeSort.v
theories/Proofs/MergeSortProofs.v
theories/Props/C40.v
theories/Props/C41.v
theories/Spec/FastSearch.v
theories/Model/FastSearch.v
theories/Proofs/RotProofs.v
theories/Proofs/FastSearchProofs.v
theories/Proofs/CommonProofs.v
theories/Props/C42.v
theories/Props/C43.v
theories/Spec/RefCount.v
theories/Model/RefCount.v
theories/Proofs/RefCountProofs.v
theories/Props/C44.v
theories/Spec/FastAlloc.v
theories/Model/FastAlloc.v
theories/Spec/AllocObs.v
theories/Proofs/FastAllocProofs.v
theories/Props/C45.v
theories/Props/C46.v
theories/Spec/Tree.v
theories/Model/Tree.v
theories/Spec/TreeObs.v
theories/Proofs/TreeProofs.v
theories/Props/C47.v
theories/Props/C68.v
theories/Model/Url.v
theories/Spec/Url.v
theories/Proofs/UrlProofs.v
theories/Props/C48.v
theories/Spec/UrlAlt.v
theories/Proofs/UrlAltProofs.v
theories/Props/C49.v
theories/Spec/UrlDelta.v
theories/Proofs/UrlDeltaProofs.v
theories/Props/C50.v
theories/Spec/UrlText.v
theories/Proofs/UrlTextProofs.v
theories/Proofs/UrlPrintProofs.v
theories/Props/C51.v
theories/Model/StringU16.v
theories/Spec/StringU16.v
theories/Proofs/StringU16Proofs.v
theories/Props/C52.v
theories/Model/OStream.v
theories/Spec/OStream.v
theories/Proofs/OStreamProofs.v
theories/Props/C53.v
theories/Model/Timer.v
theories/Spec/Timer.v
theories/Proofs/TimerProofs.v
theories/Props/C54.v
theories/Model/Locale.v
theories/Spec/Locale.v
theories/Proofs/LocaleProofs.v
theories/Props/C55.v
theories/Model/Blackbox.v
theories/Spec/Blackbox.v
theories/Proofs/BlackboxProofs.v
theories/Props/C56.v
theories/Model/File.v
theories/Spec/File.v
theories/Proofs/FileProofs.v
theories/Props/C57.v
theories/Model/Pipes.v
theories/Spec/Pipes.v
theories/Proofs/PipesProofs.v
theories/Props/C58.v
theories/Model/Hash.v
theories/Spec/Hash.v
theories/Proofs/HashProofs.v
theories/Props/C60.v
theories/Model/Subprocess.v
theories/Spec/Subprocess.v
theories/Proofs/SubprocessProofs.v
theories/Props/C69.v
theories/Model/Digest.v
theories/Spec/Digest.v
theories/Spec/DigestFile.v
theories/Proofs/DigestProofs.v
theories/Props/C70.v
theories/Model/Hashtree.v
theories/Spec/Hashtree.v
theories/Proofs/HashtreeProofs.v
theories/Props/C71.v
theories/Spec/UrlName.v
theories/Proofs/UrlNameProofs.v
theories/Props/C72.v
theories/Model/Spawn.v
theories/Spec/Spawn.v
theories/Proofs/SpawnProofs.v
theories/Props/C73.v
theories/Model/Directory.v
theories/Spec/Directory.v
theories/Proofs/DirectoryProofs.v
theories/Props/C74.v
theories/Model/Http.v
theories/Spec/Http.v
theories/Proofs/HttpProofs.v
theories/Props/C75.v
theories/Model/Temp.v
theories/Spec/Temp.v
theories/Proofs/TempProofs.v
theories/Props/C76.v
theories/Model/FileTest.v
theories/Spec/FileTest.v
theories/Proofs/FileTestProofs.v
theories/Props/C77.v
theories/Model/UrlClass.v
theories/Spec/UrlClass.v
theories/Proofs/UrlClassProofs.v
theories/Props/C78.v
theories/Model/Resource.v
theories/Spec/Resource.v
theories/Proofs/ResourceProofs.v
theories/Props/C79.v
theories/Model/Print.v
theories/Spec/Print.v
theories/Spec/Display.v
theories/Proofs/PrintProofs.v
theories/Proofs/DisplayProofs.v
theories/Props/C80.v
theories/Props/C81.v
theories/Model/Channel.v
theories/Spec/Channel.v
theories/Proofs/ChannelProofs.v
theories/Props/C82.v
theories/Model/Unicode.v
theories/Spec/Unicode.v
theories/Proofs/UnicodeProofs.v
theories/Props/C83.v
theories/Proofs/CharsProofs.v
theories/Proofs/ShapeProofs.v
theories/Spec/UrlKind.v
theories/Proofs/UrlKindProofs.v
theories/Props/C84.v
theories/Model/Env.v
theories/Spec/Env.v
theories/Proofs/EnvProofs.v
theories/Props/C85.v
theories/Proofs/FloatProofs.v
theories/Model/Double.v
theories/Spec/Double.v
theories/Proofs/DoubleProofs.v
theories/Proofs/Double2Proofs.v
theories/Props/C86.v
theories/Model/Length.v
theories/Spec/Length.v
theories/Proofs/LengthProofs.v
theories/Props/C87.v
theories/Model/Il2.v
theories/Spec/Il2.v
theories/Proofs/Il2Proofs.v
theories/Props/C88.v
theories/Spec/Ispell.v
theories/Proofs/ExactProofs.v
theories/Model/UrlWin.v
theories/Spec/UrlWin.v
theories/Proofs/UrlWinProofs.v
theories/Props/C89.v
theories/Model/DoubleText.v
theories/Spec/DoubleText.v
theories/Proofs/DecimalProofs.v
theories/Proofs/DoubleTextProofs.v
theories/Proofs/DoubleRoundProofs.v
theories/Props/C90.v
theories/Proofs/UrlAddressProofs.v
theories/Model/DoubleRead.v
theories/Proofs/DoubleReadProofs.v
theories/Props/C91.v
theories/Model/TreeMore.v
theories/Spec/TreeMore.v
theories/Proofs/TreeMoreProofs.v
theories/Props/C92.v
theories/Model/Session.v
theories/Spec/Session.v
theories/Proofs/SessionProofs.v
theories/Props/C93.v
theories/Model/Call.v
theories/Spec/Call.v
theories/Proofs/CallProofs.v
theories/Props/C94.v
theories/Spec/Promise.v
theories/Model/Promise.v
theories/Proofs/PromiseProofs.v
theories/Props/C95.v
theories/Model/OtherAlloc.v
theories/Spec/OtherAlloc.v
theories/Proofs/OtherAllocProofs.v
theories/Props/C96.v
theories/Model/DebugAlloc.v
theories/Spec/DebugAlloc.v
theories/Proofs/DebugAllocProofs.v
theories/Props/C97.v
theories/Proofs/UrlAncestorProofs.v
theories/Model/RelShared.v
theories/Spec/RelShared.v
theories/Proofs/RelSharedProofs.v
theories/Props/C98.v
theories/Model/Command.v
theories/Spec/Command.v
theories/Proofs/CommandProofs.v
theories/Props/C99.v
theories/Model/WinArgs.v
theories/Spec/Arguments.v
theories/Proofs/ArgumentsProofs.v
theories/Model/WinCommand.v
theories/Spec/WinCommand.v
theories/Proofs/WinCommandProofs.v
theories/Props/C100.v
theories/Proofs/UrlExpandProofs.v
theories/Proofs/FileRootProofs.v
theories/Spec/SearchPath.v
theories/Proofs/SearchPathProofs.v
theories/Props/C101.v
theories/Spec/Disk.v
theories/Proofs/DiskProofs.v
theories/Props/C102.v
theories/Spec/Hex.v
theories/Proofs/HexProofs.v
theories/Model/Stacktrace.v
theories/Spec/Stacktrace.v
theories/Proofs/StacktraceProofs.v
theories/Props/C103.v
theories/Spec/TempUse.v
theories/Proofs/TempUseProofs.v
theories/Props/C104.v
theories/Proofs/ReadIntProofs.v
theories/Proofs/SearchMoreProofs.v
theories/Spec/Utf8More.v
theories/Proofs/Utf8MoreProofs.v
theories/Spec/UrlWinMore.v
theories/Proofs/UrlWinMoreProofs.v
theories/Proofs/DiffMoreProofs.v
theories/Spec/UrlDeltaMore.v
theories/Proofs/UrlDeltaMoreProofs.v
theories/Proofs/UrlDeltaUpProofs.v
theories/Proofs/UrlDeltaAltProofs.v
theories/Spec/UrlLoop.v
theories/Proofs/UrlLoopProofs.v
theories/Spec/DiskRefuse.v
theories/Proofs/DiskRefuseProofs.v
theories/Spec/SearchDisk.v
theories/Proofs/SearchDiskProofs.v
theories/Spec/TempRefuse.v
theories/Proofs/TempRefuseProofs.v
theories/Proofs/TempTextProofs.v
theories/Spec/UrlWinPattern.v
theories/Proofs/UrlWinPatternProofs.v
theories/Spec/UrlWinHome.v
theories/Proofs/UrlWinHomeProofs.v
theories/Proofs/DigestMemoryProofs.v
