-Q theories Verif
theories/Base.v
theories/VectorQueueModel.v
theories/VectorQueueSpec.v
theories/VectorQueueProofs.v
theories/VectorQueueProps.v
theories/RingModel.v
theories/RingProofs.v
theories/RingProps.v
theories/Bits.v
theories/Base64Model.v
theories/Base64Spec.v
theories/Base64Proofs.v
theories/Base64StreamProofs.v
theories/Base64Props.v
theories/HexModel.v
theories/HexProps.v
theories/MathModel.v
theories/MathProps.v
theories/MappingModel.v
theories/MappingProps.v
theories/ChronoModel.v
theories/ChronoSpec.v
theories/ChronoProofs.v
theories/ChronoProps.v
theories/HashModel.v
theories/HashSpec.v
theories/HashProofs.v
theories/HashRounds.v
theories/HashSha1.v
theories/HashProps.v
theories/StringModel.v
theories/StringSpec.v
theories/StringProofs.v
theories/StringSearch.v
theories/StringTrim.v
theories/StringProps.v
theories/SgmlTable.v
theories/SgmlSpec.v
theories/SgmlModel.v
theories/SgmlSearch.v
theories/SgmlDecode.v
theories/SgmlCodec.v
theories/SgmlRound.v
theories/SgmlText.v
theories/SgmlProps.v
theories/StreamModel.v
theories/StreamSpec.v
theories/StreamProps.v
theories/MemFileModel.v
theories/MemFileSpec.v
theories/MemFileProps.v
theories/FifoModel.v
theories/FifoProps.v
theories/ConvModel.v
theories/ConvProps.v
theories/FileConvModel.v
theories/FileConvSpec.v
theories/FileConvProps.v
theories/ReplicatorModel.v
theories/ReplicatorSpec.v
theories/ReplicatorProps.v
theories/AsyncModel.v
theories/AsyncSpec.v
theories/AsyncReaderProps.v
theories/AsyncWriterProps.v
theories/SpinlockModel.v
theories/SpinlockProps.v
theories/PoolModel.v
theories/PoolSpec.v
theories/PoolProps.v
theories/WatchdogModel.v
theories/WatchdogProps.v
theories/ProgressModel.v
theories/ProgressProps.v
theories/UuidModel.v
theories/UuidSpec.v
theories/UuidProps.v
theories/CharsetModel.v
theories/CharsetProps.v
theories/IdrecModel.v
theories/IdrecSpec.v
theories/IdrecProps.v
theories/ParserModel.v
theories/ParserSpec.v
theories/ParserProps.v
theories/ParserPerm.v
theories/ParserEx.v
theories/ParserNumModel.v
theories/ParserNumProps.v
theories/ParserInt.v
theories/ParserTs.v
theories/ParserPeg.v
theories/ParserPeg2.v
theories/ParserNumEx.v
theories/RomanSpec.v
theories/RomanProps.v
theories/RomanText.v
theories/ParserIpModel.v
theories/ParserIpSpec.v
theories/ParserIp4.v
theories/ParserIp6.v
theories/ParserIpEx.v
theories/ParserRefModel.v
theories/ParserRefSpec.v
theories/ParserRefNum.v
theories/ParserRef.v
theories/ParserRef2.v
theories/ParserRefEx.v
theories/HtmlEscModel.v
theories/HtmlEscSpec.v
theories/HtmlEscProps.v
theories/HtmlCssProps.v
theories/ZlibModel.v
theories/ZlibSpec.v
theories/ZlibProps.v
theories/SysModel.v
theories/SysSpec.v
theories/SysProps.v
theories/IbanTable.v
theories/JsonModel.v
theories/JsonSpec.v
theories/JsonProps.v
theories/JsonRfc.v
theories/HtmlElemModel.v
theories/HtmlElemSpec.v
theories/HtmlElemProps.v
theories/HtmlTagModel.v
theories/HtmlTagSpec.v
theories/HtmlTagProps.v
theories/HtmlTagMore.v
theories/HtmlTagSharp.v
theories/HtmlDocModel.v
theories/HtmlDocSpec.v
theories/HtmlDocProps.v
theories/HtmlDocInv.v
theories/HtmlDocMain.v
theories/HtmlDocMore.v
theories/HtmlDocChunk.v
theories/HtmlDocRef.v
theories/HtmlContent.v
theories/HtmlDocCond.v
theories/FormatModel.v
theories/FormatProps.v
theories/CssModel.v
theories/CssSpec.v
theories/CssProps.v
theories/CssTokens.v
theories/HtmlTokModel.v
theories/HtmlTokSpec.v
theories/HtmlTokProps.v
theories/HtmlTokParse.v
theories/HtmlTokMain.v
theories/HtmlTokDoc.v
theories/HtmlTokMore.v
theories/HtmlTokRef.v
theories/HtmlTokTruth.v
theories/HtmlTokTruthRef.v
theories/HttpModel.v
theories/HttpSpec.v
theories/HttpUrlSpec.v
theories/HttpMsgSpec.v
theories/HttpProps.v
theories/HttpParams.v
theories/HttpUrl.v
theories/HttpMsg.v
theories/HttpReq.v
theories/HttpReq2.v
theories/HttpHead.v
theories/HttpList.v
theories/HttpRef.v
theories/MimeModel.v
theories/MimeSpec.v
theories/Mime.v
theories/MimeRef.v
theories/WavModel.v
theories/WavSpec.v
theories/WavProps.v
theories/WavWrite.v
theories/WavRead.v
theories/WavCues.v
theories/WavRound.v
theories/WavRemove.v
theories/WavEx.v
theories/SiModel.v
theories/SiSpec.v
theories/SiProofs.v
theories/SiProps.v
theories/SiEx.v
theories/DateModel.v
theories/DateSpec.v
theories/TimeProps.v
theories/DateProps.v
theories/DateEx.v
theories/UrlModel.v
theories/UrlSpec.v
theories/DnsProps.v
theories/UrlProps.v
theories/EmoProps.v
theories/UrlEx.v
theories/PhoneModel.v
theories/PhoneSpec.v
theories/PhoneProps.v
theories/PhoneEx.v
theories/ChemProps.v
theories/SgmlCpModel.v
theories/SgmlCpSpec.v
theories/SgmlCpProps.v
theories/MinisignModel.v
theories/MinisignProps.v
theories/LangidTable.v
theories/LangidModel.v
theories/LangidProps.v
theories/HandleModel.v
theories/HandleProps.v
theories/EncoderModel.v
theories/EncoderProps.v
theories/OpenModel.v
theories/OpenProps.v
theories/MiscModel.v
theories/MiscProps.v
theories/CachedModel.v
theories/CachedProps.v
theories/RfcModel.v
theories/RfcProps.v
theories/PlatformModel.v
theories/PlatformProps.v
theories/PosixModel.v
theories/PosixProps.v
