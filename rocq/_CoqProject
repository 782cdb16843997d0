-Q theories Verif
theories/TupleModel.v
theories/RangeModel.v
theories/CartModel.v
theories/Base.v
theories/RangeProof.v
theories/CartProof.v
theories/RangeProps.v
theories/CartProps.v
theories/BoxModel.v
theories/MathModel.v
theories/IndexerModel.v
theories/ArrayModel.v
theories/BoxProof.v
theories/MathProof.v
theories/IndexerProof.v
theories/ArrayProof.v
theories/BoxProps.v
theories/MathProps.v
theories/ArrayProps.v
theories/DecompModel.v
theories/DecompProof.v
theories/DecompProps.v
theories/ContModel.v
theories/ContSpec.v
theories/ContProof.v
theories/MapProof.v
theories/UFModel.v
theories/UFSpec.v
theories/UFProof.v
theories/PoolModel.v
theories/PoolSpec.v
theories/PoolProof.v
theories/ContProps.v
theories/ReqModel.v
theories/ReqSpec.v
theories/ReqProof.v
theories/ReqProps.v
theories/FRefModel.v
theories/FRefSpec.v
theories/FRefProof.v
theories/EditModel.v
theories/EditSpec.v
theories/EditProof.v
theories/OMap.v
theories/Assoc.v
theories/EventModel.v
theories/EventSpec.v
theories/EventProof.v
theories/OptModel.v
theories/OptSpec.v
theories/OptProof.v
theories/LifeProps.v
theories/PairMap.v
theories/OptionsModel.v
theories/OptionsSpec.v
theories/OptionsProof.v
theories/DomainModel.v
theories/DomainSpec.v
theories/DomainProof.v
theories/DomainProps.v
theories/ProfModel.v
theories/ProfSpec.v
theories/ProfProof.v
theories/DimsModel.v
theories/DimsSpec.v
theories/DimsProof.v
theories/MiscProps.v
theories/ProtoModel.v
theories/ProtoSpec.v
theories/ProtoProof.v
theories/HandProof.v
theories/SerProof.v
theories/ProtoProps.v
theories/NetModel.v
theories/NetSpec.v
theories/NetProof.v
theories/NetPhase.v
theories/HashModel.v
theories/HashSpec.v
theories/HashProof.v
theories/HashGeoProof.v
theories/HashProps.v
theories/NetTools.v
theories/DHashModel.v
theories/DHashProof.v
theories/DRetrProof.v
theories/DCompProof.v
theories/DRangeProof.v
theories/DDecompProof.v
theories/DHashProps.v
theories/LiftModel.v
theories/LiftProof.v
theories/NeighModel.v
theories/NeighSpec.v
theories/NeighProof.v
theories/HaloModel.v
theories/AnyPhase.v
theories/InfoProof.v
theories/HaloProof.v
theories/PartModel.v
theories/HaloEx.v
theories/PartProof.v
theories/HaloProps.v
theories/FieldModel.v
theories/FieldSpec.v
theories/FieldProof.v
theories/EdgeProof.v
theories/ExtProof.v
theories/FieldLaws.v
theories/FieldProps.v
theories/CompModel.v
theories/UFTrack.v
theories/CompSpec.v
theories/LabelProof.v
theories/CompProof.v
theories/FloodProof.v
theories/CompLaws.v
theories/CompProps.v
theories/SendModel.v
theories/SendSpec.v
theories/SendProof.v
theories/SendLaws.v
theories/DisperseModel.v
theories/DisperseSpec.v
theories/DisperseProof.v
theories/SendProps.v
theories/CollectModel.v
theories/CollectSpec.v
theories/CollectProof.v
theories/CollectLaws.v
theories/CollectProps.v
theories/AsmModel.v
theories/AsmRep.v
theories/AsmOps.v
theories/AsmSpec.v
theories/AsmFlags.v
theories/AsmGeom.v
theories/AsmPhase.v
theories/AsmProof.v
theories/AsmLaws.v
theories/AsmMain.v
theories/AsmEx.v
theories/AsmProps.v
theories/XchModel.v
theories/XchSpec.v
theories/XchProof.v
theories/XchLaws.v
theories/XchMain.v
theories/XchProps.v
theories/EmbedModel.v
theories/EmbedProof.v
theories/PipeModel.v
theories/PipeSpec.v
theories/PipeProof.v
theories/PipeLaws.v
theories/PipeProps.v
theories/CellModel.v
theories/CellSpec.v
theories/CellProof.v
theories/DonorProof.v
theories/CellProps.v
theories/FragModel.v
theories/FragSpec.v
theories/FragProof.v
theories/FragEx.v
theories/FragProps.v
theories/AccelModel.v
theories/AccelSpec.v
theories/AccelProof.v
theories/AccelProps.v
theories/GeomModel.v
theories/GeomSpec.v
theories/GeomProof.v
theories/GeomNewton.v
theories/GeomLattice.v
theories/GeomVolume.v
theories/GeomEx.v
theories/GeomProps.v
theories/DetectModel.v
theories/DetectSpec.v
theories/DetectProof.v
theories/DetectGeo.v
theories/DetectSame.v
theories/DetectCurv.v
theories/DetectEx.v
theories/DetectProps.v
theories/OvlModel.v
theories/OvlSpec.v
theories/OvlProof.v
theories/OvlLaws.v
theories/OvlEx.v
theories/OvlProps.v
theories/ConModel.v
theories/ConSpec.v
theories/ConProof.v
theories/ConLaws.v
theories/ConEx.v
theories/ConProps.v
theories/FullSpec.v
theories/FullProof.v
theories/FullLaws.v
theories/FullEx.v
theories/FullProps.v
theories/ExcModel.v
theories/ExcProof.v
theories/ExcSpec.v
theories/ExcLaws.v
theories/ExcRun.v
theories/ExcSnap.v
theories/ExcEx.v
theories/ExcProps.v
theories/BindModel.v
theories/BindSpec.v
theories/BindProof.v
theories/BindProps.v
theories/FtxModel.v
theories/FtxSpec.v
theories/FtxProof.v
theories/FtxInv.v
theories/FtxStep.v
theories/FtxLive.v
theories/FtxEx.v
theories/FtxProps.v
theories/FcnModel.v
theories/FcnSpec.v
theories/FcnProof.v
theories/FcnMain.v
theories/FcnEx.v
theories/FcnProps.v
theories/FwdModel.v
theories/FwdSpec.v
theories/FwdProof.v
theories/FwdLaws.v
theories/FwdEx.v
theories/FwdProps.v
theories/OccModel.v
theories/OccSpec.v
theories/OccProof.v
theories/OccLaws.v
theories/OccEx.v
theories/OccProps.v
theories/HoleModel.v
theories/HoleSpec.v
theories/HoleProof.v
theories/HoleLaws.v
theories/HoleEx.v
theories/HoleProps.v
theories/DomModel.v
theories/DomSpec.v
theories/DomGeom.v
theories/DomProof.v
theories/DomLaws.v
theories/DomMain.v
theories/DomEx.v
theories/DomProps.v
theories/XinModel.v
theories/XinSpec.v
theories/XinBytes.v
theories/XinChunk.v
theories/XinRead.v
theories/XinData.v
theories/XinMain.v
theories/XinFile.v
theories/XinEx.v
theories/XinProps.v
theories/MatModel.v
theories/MatSpec.v
theories/MatProof.v
theories/MatLaws.v
theories/MatMain.v
theories/MatFile.v
theories/MatEx.v
theories/MatProps.v
theories/DistModel.v
theories/DistSpec.v
theories/DistBox.v
theories/DistProof.v
theories/DistEx.v
theories/DistProps.v
theories/ImpModel.v
theories/ImpSpec.v
theories/ImpProof.v
theories/ImpMain.v
theories/ImpEx.v
theories/ImpProps.v
theories/EndModel.v
theories/EndSpec.v
theories/EndLists.v
theories/EndProof.v
theories/EndMain.v
theories/EndServed.v
theories/EndEx.v
theories/EndProps.v
theories/ExnModel.v
theories/ExnSpec.v
theories/ExnProof.v
theories/ExnEx.v
theories/ExnProps.v
theories/ErrModel.v
theories/ErrSpec.v
theories/ErrProof.v
theories/ErrEx.v
theories/ErrProps.v
theories/GedModel.v
theories/GedSpec.v
theories/GedGeo.v
theories/GedProof.v
theories/GedEx.v
theories/GedProps.v
theories/ThrModel.v
theories/ThrSpec.v
theories/ThrGen.v
theories/ThrProof.v
theories/ThrLink.v
theories/ThrEx.v
theories/ThrProps.v
theories/HexModel.v
theories/HexSpec.v
theories/HexProof.v
theories/HexRun.v
theories/HexPart.v
theories/HexEx.v
theories/HexEx2.v
theories/HexProps.v
theories/GcoModel.v
theories/GcoSpec.v
theories/GcoProof.v
theories/GcoRun.v
theories/GcoEx.v
theories/GcoProps.v
theories/TxtModel.v
theories/TxtSpec.v
theories/TxtProof.v
theories/TxtEx.v
theories/TxtProps.v
theories/CifModel.v
theories/CifSpec.v
theories/CifProof.v
theories/CifEx.v
theories/CifProps.v
theories/OwnModel.v
theories/OwnSpec.v
theories/OwnProof.v
theories/OwnEx.v
theories/OwnProps.v
theories/ShrModel.v
theories/ShrSpec.v
theories/ShrProof.v
theories/ShrEx.v
theories/ShrProps.v
theories/DtyModel.v
theories/DtySpec.v
theories/DtyProof.v
theories/DtyProps.v
theories/CrqModel.v
theories/CrqSpec.v
theories/CrqProof.v
theories/CrqProps.v
theories/GpmModel.v
theories/GpmSpec.v
theories/GpmProof.v
theories/GpmProps.v
