-Q theories Verif
theories/Base.v
theories/BaseProofs.v
theories/BaxEncModel.v
theories/BaxEncProofs.v
theories/BaxEncProofs2.v
theories/BaxEncProofs3.v
theories/BaxEncProps.v
theories/BinModel.v
theories/BinProofs.v
theories/BinProps.v
theories/BinSpec.v
theories/BucketModel.v
theories/BucketProofs.v
theories/BucketProps.v
theories/BucketSpec.v
theories/CapiModel.v
theories/CapiProofs.v
theories/CapiProps.v
theories/CapiSpec.v
theories/CmpLenModel.v
theories/CmpLenProofs.v
theories/CmpLenProps.v
theories/CmpLenSpec.v
theories/CrypModel.v
theories/CrypProofs.v
theories/CrypProofs2.v
theories/CrypProps.v
theories/CrypSpec.v
theories/CuckooModel.v
theories/CuckooProofs.v
theories/CuckooProps.v
theories/CuckooSpec.v
theories/DigestModel.v
theories/DigestProofs.v
theories/DigestProps.v
theories/DigestSpec.v
theories/DispModel.v
theories/DispProofs.v
theories/DispProps.v
theories/DispSpec.v
theories/DkPirModel.v
theories/DkPirProofs.v
theories/DkPirProps.v
theories/DkPirSpec.v
theories/DkTextModel.v
theories/DkTextProofs.v
theories/DkTextProps.v
theories/DkTextSpec.v
theories/DpCalModel.v
theories/DpCalProofs.v
theories/DpCalProps.v
theories/DpCalSpec.v
theories/DpPsiModel.v
theories/DpPsiProb.v
theories/DpPsiProofs.v
theories/DpPsiProps.v
theories/DpPsiSpec.v
theories/Ecdh3pcModel.v
theories/Ecdh3pcProofs.v
theories/Ecdh3pcProps.v
theories/EcdhModel.v
theories/EcdhProofs.v
theories/EcdhProofs2.v
theories/EcdhProps.v
theories/EcdhSpec.v
theories/EllExample.v
theories/EllFermat.v
theories/EllField.v
theories/EllModel.v
theories/EllPrime.v
theories/EllProofs1.v
theories/EllProofs2.v
theories/EllProofs3.v
theories/EllProofs4.v
theories/EllProofs5.v
theories/EllProps.v
theories/EllSpec.v
theories/EoModel.v
theories/EoProofs.v
theories/EoProps.v
theories/EoSpec.v
theories/EoUbProps.v
theories/GdfModel.v
theories/GdfProofs.v
theories/GdfProps.v
theories/GdfSpec.v
theories/GfModel.v
theories/GfProofs.v
theories/GfProofs2.v
theories/GfProps.v
theories/GfSpec.v
theories/GroupDbModel.v
theories/GroupDbProofs.v
theories/GroupDbProps.v
theories/GroupDbSpec.v
theories/HashDbModel.v
theories/HashDbProps.v
theories/IndexModel.v
theories/IndexProofs.v
theories/IndexProps.v
theories/IndexSpec.v
theories/JoinModel.v
theories/JoinProofs.v
theories/JoinProofs2.v
theories/JoinProofs3.v
theories/JoinProofs4.v
theories/JoinProofs5.v
theories/JoinProofs6.v
theories/JoinProofs7.v
theories/JoinProofs8.v
theories/JoinProps.v
theories/JoinSpec.v
theories/KkrtModel.v
theories/KkrtProofs.v
theories/KkrtProofs2.v
theories/KkrtProps.v
theories/KkrtSpec.v
theories/KmModel.v
theories/KmProofs.v
theories/KmProofs2.v
theories/KmProofs3.v
theories/KmProofs4.v
theories/KmProps.v
theories/KmSpec.v
theories/KusModel.v
theories/KusProofs.v
theories/KusProps.v
theories/KusSpec.v
theories/LaunchModel.v
theories/LaunchProofs.v
theories/LaunchProps.v
theories/LaunchSpec.v
theories/LegacyModel.v
theories/LegacyProofs.v
theories/LegacyProps.v
theories/LegacySpec.v
theories/MaskIdxModel.v
theories/MaskIdxProofs.v
theories/MaskIdxProps.v
theories/MaskIdxSpec.v
theories/MemModel.v
theories/MemProofs.v
theories/MemProps.v
theories/MemSpec.v
theories/MetaModel.v
theories/MetaProps.v
theories/MetaSpec.v
theories/NPartyModel.v
theories/NPartyProofs.v
theories/NPartyProps.v
theories/NPartySpec.v
theories/NttModel.v
theories/NttProofs.v
theories/NttProofs2.v
theories/NttProofs3.v
theories/NttProofs4.v
theories/NttProofs5.v
theories/NttProofs6.v
theories/NttProps.v
theories/NttSpec.v
theories/NtyModel.v
theories/NtyProofs.v
theories/NtyProofs2.v
theories/NtyProps.v
theories/NtySpec.v
theories/OkvsModel.v
theories/OkvsProofs.v
theories/OkvsProofs2.v
theories/OkvsProofs3.v
theories/OkvsProofs4.v
theories/OkvsProps.v
theories/OkvsSpec.v
theories/OpModel.v
theories/OpProofs.v
theories/OpProps.v
theories/OpSpec.v
theories/PaxEncModel.v
theories/PaxEncProofs.v
theories/PaxEncProofs10.v
theories/PaxEncProofs2.v
theories/PaxEncProofs3.v
theories/PaxEncProofs4.v
theories/PaxEncProofs5.v
theories/PaxEncProofs6.v
theories/PaxEncProofs7.v
theories/PaxEncProofs8.v
theories/PaxEncProofs9.v
theories/PaxEncProps.v
theories/PaxEncSpec.v
theories/PhModel.v
theories/PhProofs.v
theories/PhProps.v
theories/PhSpec.v
theories/PianoModel.v
theories/PianoPriv.v
theories/PianoProofs.v
theories/PianoProofs2.v
theories/PianoProps.v
theories/PianoSpec.v
theories/PirDumpModel.v
theories/PirDumpProps.v
theories/PirPackModel.v
theories/PirPackProofs.v
theories/PirPackProofs2.v
theories/PirPackProofs3.v
theories/PirPackProps.v
theories/PirPackSpec.v
theories/PpsModel.v
theories/PpsProofs.v
theories/PpsProofs2.v
theories/PpsProofs3.v
theories/PpsProofs4.v
theories/PpsProofs5.v
theories/PpsProofs6.v
theories/PpsProps.v
theories/PpsSpec.v
theories/PpsWireModel.v
theories/PpsWireProofs.v
theories/PpsWireProps.v
theories/ProgressModel.v
theories/ProgressProofs.v
theories/ProgressProps.v
theories/ProgressSpec.v
theories/QuoteModel.v
theories/QuoteProofs.v
theories/QuoteProps.v
theories/QuoteSpec.v
theories/RcvModel.v
theories/RcvProofs.v
theories/RcvProps.v
theories/RcvSpec.v
theories/RdErrModel.v
theories/RdErrProofs.v
theories/RdErrProps.v
theories/RdErrSpec.v
theories/RecoveryModel.v
theories/RecoveryProofs.v
theories/RecoveryProps.v
theories/RecoverySpec.v
theories/ResumeModel.v
theories/ResumeProofs.v
theories/ResumeProps.v
theories/Rr22MatchModel.v
theories/Rr22MatchProofs.v
theories/Rr22MatchProps.v
theories/Rr22MatchSpec.v
theories/Rr22OprfModel.v
theories/Rr22OprfProofs.v
theories/Rr22OprfProps.v
theories/Rr22OprfSpec.v
theories/Rr22RunModel.v
theories/Rr22RunProofs.v
theories/Rr22RunProps.v
theories/Rr22RunSpec.v
theories/SealPirModel.v
theories/SealPirProofs1.v
theories/SealPirProofs2.v
theories/SealPirProofs3.v
theories/SealPirProofs4.v
theories/SealPirProofs5.v
theories/SealPirProofs6.v
theories/SealPirProofs7.v
theories/SealPirProofs8.v
theories/SealPirProofs9.v
theories/SealPirProps.v
theories/SealPirSpec.v
theories/ShellModel.v
theories/ShellProps.v
theories/ShellSpec.v
theories/ShufModel.v
theories/ShufProofs.v
theories/ShufProps.v
theories/ShufSpec.v
theories/SimPirModel.v
theories/SimPirProofs.v
theories/SimPirProps.v
theories/SpArithModel.v
theories/SpArithProofs.v
theories/SpArithProofs2.v
theories/SpArithProps.v
theories/SpArithSpec.v
theories/SpCliModel.v
theories/SpCliProofs1.v
theories/SpCliProofs2.v
theories/SpCliProofs3.v
theories/SpCliProofs4.v
theories/SpCliProofs5.v
theories/SpCliProps.v
theories/SpCliSpec.v
theories/SpDecodeModel.v
theories/SpDecodeProofs.v
theories/SpDecodeProofs2.v
theories/SpDecodeProofs3.v
theories/SpDecodeProps.v
theories/SpDecodeSpec.v
theories/SpFullProofs.v
theories/SpFullProps.v
theories/SpGadgetModel.v
theories/SpGadgetProofs.v
theories/SpGadgetProps.v
theories/SpGadgetSpec.v
theories/SpLoopModel.v
theories/SpLoopProofs.v
theories/SpRingModel.v
theories/SpRingProofs.v
theories/SpRingProofs2.v
theories/SpRingSpec.v
theories/SpSelModel.v
theories/SpSelProofs.v
theories/SpSelProofs2.v
theories/SpSelProofs3.v
theories/SpSelProofs4.v
theories/SpSelProofs5.v
theories/SpSelProofs6.v
theories/SpSelProofs7.v
theories/SpSelProps.v
theories/SpSelSpec.v
theories/SpSrvModel.v
theories/SpSrvProofs1.v
theories/SpSrvProofs2.v
theories/SpSrvProofs3.v
theories/SpSrvProofs4.v
theories/SpSrvProofs5.v
theories/SpSrvProofs6.v
theories/SpSrvProofs7.v
theories/SpSrvProps.v
theories/SpSrvSpec.v
theories/SpWireModel.v
theories/SpWireProofs.v
theories/SpanModel.v
theories/SpanProofs.v
theories/SpanProps.v
theories/SpanSpec.v
theories/StoreModel.v
theories/StoreProofs.v
theories/StoreProofs2.v
theories/StoreProps.v
theories/StoreSpec.v
theories/SyncModel.v
theories/SyncProofs.v
theories/SyncProps.v
theories/Text.v
theories/TextProofs.v
theories/ThrModel.v
theories/ThrProofs.v
theories/ThrProofs2.v
theories/ThrProofs3.v
theories/ThrProps.v
theories/ThrSpec.v
theories/UbCacheModel.v
theories/UbCacheProofs.v
theories/UbCacheProps.v
theories/UbCacheSpec.v
theories/UbFsModel.v
theories/UbFsProofs.v
theories/UbFsProps.v
theories/UbFsSpec.v
theories/UbPsiModel.v
theories/UbPsiProofs.v
theories/UbPsiProofs2.v
theories/UbPsiProps.v
theories/UbPsiSpec.v
theories/UbThrModel.v
theories/UbThrProofs.v
theories/UbThrProofs2.v
theories/UbThrProofs3.v
theories/UbThrProofs4.v
theories/UbThrProps.v
theories/UbThrSpec.v
