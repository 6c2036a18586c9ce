-Q theories Verif

theories/Base.v
theories/Sweep.v
theories/QueueModel.v
theories/QueueSpec.v
theories/QueueProofs.v
theories/QueueProps.v
theories/Base64Model.v
theories/Base64Spec.v
theories/Base64Proofs.v
theories/Base64Props.v
theories/Rc4Model.v
theories/Rc4Spec.v
theories/Rc4Proofs.v
theories/Rc4Props.v
theories/StrModel.v
theories/StrSpec.v
theories/KmpProofs.v
theories/StrProofs.v
theories/StrProps.v
theories/ChainModel.v
theories/ChainSpec.v
theories/ChainProofs.v
theories/ChainProps.v
theories/ArrayModel.v
theories/ArraySpec.v
theories/ArrayProofs.v
theories/ArrayProps.v
theories/EndianModel.v
theories/EndianSpec.v
theories/EndianProofs.v
theories/EndianProps.v
theories/BnModel.v
theories/BnSpec.v
theories/BnLimbProofs.v
theories/BnAddProofs.v
theories/BnMulProofs.v
theories/BnDivProofs.v
theories/BnShiftProofs.v
theories/BnProofs.v
theories/BnProps.v
theories/BnTextModel.v
theories/BnTextSpec.v
theories/BnTextProofs.v
theories/BnStringProofs.v
theories/BnOctProofs.v
theories/BnTextProps.v
theories/BnModModel.v
theories/BnModProofs.v
theories/BnEulidProofs.v
theories/BnModProps.v
theories/RbModel.v
theories/RbSpec.v
theories/RbLinkProofs.v
theories/RbInsertProofs.v
theories/RbDeleteProofs.v
theories/RbUnlinkProofs.v
theories/RbFindProofs.v
theories/RbProofs.v
theories/RbProps.v
theories/CalModel.v
theories/CalSpec.v
theories/CalProofs.v
theories/CalProps.v
theories/CronModel.v
theories/CronSpec.v
theories/CronProofs.v
theories/CronProps.v
theories/DesModel.v
theories/DesSpec.v
theories/DesProofs.v
theories/DesProps.v
theories/AesModel.v
theories/AesSpec.v
theories/AesProofs.v
theories/AesProps.v
theories/HashModel.v
theories/HashSpec.v
theories/HashProofs.v
theories/HashProps.v
theories/FheapModel.v
theories/FheapSpec.v
theories/FheapProofs.v
theories/FheapProps.v
theories/NumProofs.v
theories/PrimeModel.v
theories/PrimeSpec.v
theories/PrimeProofs.v
theories/PrimeProps.v
theories/Asn1Model.v
theories/Asn1Spec.v
theories/Asn1Proofs.v
theories/Asn1EncProofs.v
theories/Asn1Props.v
theories/WsModel.v
theories/WsSpec.v
theories/WsProofs.v
theories/WsProps.v
theories/JsonNumModel.v
theories/JsonModel.v
theories/JsonSpec.v
theories/JsonNumProofs.v
theories/JsonTextProofs.v
theories/JsonProofs.v
theories/JsonEncProofs.v
theories/JsonSafeProofs.v
theories/JsonPolicyProofs.v
theories/JsonObjModel.v
theories/JsonObjSpec.v
theories/JsonObjProofs.v
theories/JsonProps.v
theories/AllocModel.v
theories/AllocSpec.v
theories/AllocProofs.v
theories/AllocProps.v
theories/ShmModel.v
theories/ShmSpec.v
theories/ShmProofs.v
theories/ShmProps.v
theories/GaussModel.v
theories/GaussSpec.v
theories/GaussProofs.v
theories/MatrixModel.v
theories/MatrixProps.v
theories/RsModel.v
theories/RsSpec.v
theories/GfProofs.v
theories/RsProofs.v
theories/RsExact.v
theories/RsProps.v
theories/FecModel.v
theories/FecSpec.v
theories/FecProofs.v
theories/FecProps.v
theories/SpanModel.v
theories/SpanSpec.v
theories/SpanProofs.v
theories/SpanProps.v
theories/DigestModel.v
theories/DigestSpec.v
theories/DigestStream.v
theories/DigestBlocks.v
theories/DigestProofs.v
theories/DigestProps.v
theories/TpoolModel.v
theories/TpoolSpec.v
theories/TpoolProofs.v
theories/TpoolProps.v
theories/GcModel.v
theories/GcSpec.v
theories/GcProofs.v
theories/GcProps.v
theories/BnLooseProofs.v
theories/BnPrimeModel.v
theories/BnPrimeSpec.v
theories/BnPrimeProofs.v
theories/ProthProofs.v
theories/RsaModel.v
theories/RsaSpec.v
theories/RsaProofs.v
theories/RsaBlockProofs.v
theories/RsaSignProofs.v
theories/RsaForgeProofs.v
theories/RsaKeyProofs.v
theories/RsaShortProofs.v
theories/RsaExample.v
theories/RsaProps.v
theories/RsaSignProps.v
theories/RsaKeyProps.v
theories/RegexpModel.v
theories/RegexpSpec.v
theories/RegexpProofs.v
theories/RegexpRepProofs.v
theories/RegexpSearchProofs.v
theories/RegexpProps.v
theories/RegexpRepProps.v
theories/IothModel.v
theories/IothSpec.v
theories/IothProofs.v
theories/IothProps.v
theories/HttpModel.v
theories/HttpSpec.v
theories/HttpProofs.v
theories/HttpProps.v
theories/FileModel.v
theories/FileSpec.v
theories/FileProofs.v
theories/FileProps.v
theories/WshModel.v
theories/WshSpec.v
theories/WshProofs.v
theories/WshProps.v
theories/ConnModel.v
theories/ConnSpec.v
theories/ConnProofs.v
theories/ConnProps.v
theories/TimerModel.v
theories/TimerSpec.v
theories/TimerProofs.v
theories/TimerProps.v
theories/EventModel.v
theories/EventSpec.v
theories/EventProofs.v
theories/EventProps.v
theories/LexModel.v
theories/ExprModel.v
theories/LexSpec.v
theories/LexProofs.v
theories/ExprSpec.v
theories/ExprProofs.v
theories/LexProps.v
theories/ExprProps.v
theories/ConfModel.v
theories/ConfSpec.v
theories/ConfProofs.v
theories/ConfFind.v
theories/ConfProps.v
theories/IpcModel.v
theories/IpcSpec.v
theories/IpcProofs.v
theories/IpcProps.v
theories/JgenModel.v
theories/JgenSpec.v
theories/JgenProofs.v
theories/JgenProps.v
theories/PreModel.v
theories/PreSpec.v
theories/PreProofs.v
theories/PreProps.v
theories/ThrModel.v
theories/ThrSpec.v
theories/ThrProofs.v
theories/ThrProps.v
theories/LogModel.v
theories/LogSpec.v
theories/LogProofs.v
theories/LogProps.v
theories/LarrModel.v
theories/LarrSpec.v
theories/LarrProofs.v
theories/LarrProps.v
theories/LscopeModel.v
theories/LscopeSpec.v
theories/LscopeProofs.v
theories/LscopeProps.v
theories/LpipeModel.v
theories/LpipeSpec.v
theories/LpipeProofs.v
theories/LpipeProps.v
theories/LjobModel.v
theories/LjobSpec.v
theories/LjobProofs.v
theories/LjobProps.v
theories/LschedModel.v
theories/LschedSpec.v
theories/LschedProofs.v
theories/LschedProps.v
theories/LintModel.v
theories/LintSpec.v
theories/LintProofs.v
theories/LintProps.v
