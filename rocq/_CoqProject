-Q theories Verif

theories/Base.v
theories/NumProofs.v
theories/ArithSpec.v
theories/ArithModel.v
theories/ArithProofs.v
theories/ArithExtra.v
theories/ArithProps.v
theories/ConstModProofs.v
theories/InvertProofs.v
theories/StreamModel.v
theories/LcgModel.v
theories/LcgProofs.v
theories/Lcg2Proofs.v
theories/Lcg3Proofs.v
theories/LcgExtra.v
theories/LcgProps.v
theories/ProgModel.v
theories/ProgSpec.v
theories/ProgProofs.v
theories/UIntModel.v
theories/UIntSpec.v
theories/UIntProofs.v
theories/UInt2Proofs.v
theories/UInt3Proofs.v
theories/UInt4Proofs.v
theories/UIntProps.v
theories/RingModel.v
theories/RingProofs.v
theories/SwcModel.v
theories/SwcSpec.v
theories/SwcProofs.v
theories/Swc2Proofs.v
theories/Swc3Proofs.v
theories/LfModel.v
theories/LfSpec.v
theories/LfProofs.v
theories/Lag2Proofs.v
theories/LagProps.v
theories/WinProofs.v
theories/BitsProofs.v
theories/MtModel.v
theories/MtSpec.v
theories/MtProofs.v
theories/TemperProofs.v
theories/Mt2Proofs.v
theories/Mt3Proofs.v
theories/MtWit.v
theories/MtProps.v
theories/LfsModel.v
theories/LfsSpec.v
theories/LfsProofs.v
theories/LfsProps.v
theories/AdaptModel.v
theories/AdaptSpec.v
theories/AdaptProofs.v
theories/ShufProofs.v
theories/AdaptIoProofs.v
theories/AdaptProps.v
theories/IbModel.v
theories/IbProofs.v
theories/IbProps.v
theories/SplitModel.v
theories/SplitSpec.v
theories/SplitProofs.v
theories/SplitProps.v
theories/MixSkipModel.v
theories/MixModel.v
theories/MixSpec.v
theories/MixProofs.v
theories/Mix2Proofs.v
theories/Mix3Proofs.v
theories/MixTabProofs.v
theories/Mix4Proofs.v
theories/Mix5Proofs.v
theories/MixProps.v
theories/SeqModel.v
theories/SeqSpec.v
theories/SeqProofs.v
theories/SeqProps.v
theories/SeedModel.v
theories/SeedSpec.v
theories/SeedProofs.v
theories/Seed2Proofs.v
theories/SeedProps.v
theories/GenModel.v
theories/GenSpec.v
theories/GenProofs.v
theories/Gen2Proofs.v
theories/Gen3Proofs.v
theories/Gen4Proofs.v
theories/Gen5Proofs.v
theories/GenProps.v
theories/QrngModel.v
theories/QrngSpec.v
theories/QrngProofs.v
theories/Qrng2Proofs.v
theories/Qrng3Proofs.v
theories/Qrng4Proofs.v
theories/Qrng5Proofs.v
theories/QTextModel.v
theories/QTextProofs.v
theories/SobolModel.v
theories/SobolSpec.v
theories/SobolProofs.v
theories/SobolTable.v
theories/SobolTableProofs.v
theories/QrngProps.v
theories/DiscModel.v
theories/DiscSpec.v
theories/DiscProofs.v
theories/Disc2Proofs.v
theories/Disc3Proofs.v
theories/Disc4Proofs.v
theories/Disc5Proofs.v
theories/DiscProps.v
theories/FloatModel.v
theories/FloatSpec.v
theories/FloatProofs.v
theories/RealModel.v
theories/RealSpec.v
theories/RealProofs.v
theories/UniProofs.v
theories/Uni2Proofs.v
theories/Uni3Proofs.v
theories/CanonProofs.v
theories/Canon2Proofs.v
theories/RealProps.v
theories/IfpModel.v
theories/IfpSpec.v
theories/IfpProofs.v
theories/Ifp2Proofs.v
theories/Ifp3Proofs.v
theories/Ifp4Proofs.v
theories/IfpProps.v
theories/PolyModel.v
theories/PolySpec.v
theories/PolyProofs.v
theories/Poly2Proofs.v
theories/Poly3Proofs.v
theories/Poly4Proofs.v
theories/Poly5Proofs.v
theories/Poly6Proofs.v
theories/PolyProps.v
theories/MtJumpModel.v
theories/MtJumpSpec.v
theories/MtJumpProofs.v
theories/MtJump2Proofs.v
theories/MtJump3Proofs.v
theories/MtJump4Proofs.v
theories/MtJumpProps.v
theories/QReachProofs.v
theories/FaureSpec.v
theories/FaureModel.v
theories/FaureNetProofs.v
theories/FaureNet2Proofs.v
theories/FaureProofs.v
theories/Faure2Proofs.v
theories/Faure3Proofs.v
theories/Faure4Proofs.v
theories/Faure5Proofs.v
theories/Faure6Proofs.v
theories/FaureProps.v
theories/NetSpec.v
theories/Gf2Proofs.v
theories/NiedTable.v
theories/NiedTableProofs.v
theories/NetProofs.v
theories/Net2Proofs.v
theories/Net3Proofs.v
theories/NiedModel.v
theories/NiedSpec.v
theories/NiedProofs.v
theories/Net4Proofs.v
theories/NetProps.v
theories/RDiscModel.v
theories/RDiscSpec.v
theories/RDiscProofs.v
theories/RDisc2Proofs.v
theories/RDisc3Proofs.v
theories/RDisc4Proofs.v
theories/RDisc5Proofs.v
theories/RDisc6Proofs.v
theories/RDiscProps.v
theories/PieceModel.v
theories/PieceSpec.v
theories/PieceProofs.v
theories/Piece2Proofs.v
theories/Piece3Proofs.v
theories/Piece4Proofs.v
theories/PieceProps.v
theories/BinModel.v
theories/BinSpec.v
theories/BinProofs.v
theories/Bin2Proofs.v
theories/Bin3Proofs.v
theories/Bin4Proofs.v
theories/Bin5Proofs.v
theories/Bin6Proofs.v
theories/Bin7Proofs.v
theories/BinProps.v
theories/PoisModel.v
theories/PoisSpec.v
theories/PoisProofs.v
theories/PoisProps.v
theories/Pois2Proofs.v
theories/Pois2Props.v
theories/RExpProofs.v
theories/StirProofs.v
theories/PoisRSpec.v
theories/Pois3Proofs.v
theories/Pois4Proofs.v
theories/Pois3Props.v
theories/ZigTable.v
theories/ZigModel.v
theories/ZigSpec.v
theories/Zig1Proofs.v
theories/Zig2Proofs.v
theories/Zig3Proofs.v
theories/Zig4Proofs.v
theories/Zig5Proofs.v
theories/Zig6Proofs.v
theories/Zig7Proofs.v
theories/ZigProps.v
theories/InvModel.v
theories/InvSpec.v
theories/Inv1Proofs.v
theories/Inv2Proofs.v
theories/Inv3Proofs.v
theories/Inv4Proofs.v
theories/InvProps.v
theories/GamModel.v
theories/GamSpec.v
theories/Gam1Proofs.v
theories/Gam2Proofs.v
theories/Gam3Proofs.v
theories/GamProps.v
theories/Gam4Proofs.v
theories/Gam5Proofs.v
theories/Gam2Props.v
theories/Bin8Proofs.v
theories/Bin9Proofs.v
theories/Bin10Proofs.v
theories/FarSpec.v
theories/Bin11Proofs.v
theories/Bin12Proofs.v
theories/FarProps.v
theories/HypModel.v
theories/HypSpec.v
theories/HypProofs.v
theories/Hyp2Proofs.v
theories/Hyp3Proofs.v
theories/HypProps.v
theories/SphModel.v
theories/SphSpec.v
theories/SphProofs.v
theories/Sph2Proofs.v
theories/Sph3Proofs.v
theories/Sph4Proofs.v
theories/Sph5Proofs.v
theories/SphProps.v
theories/NccModel.v
theories/NccSpec.v
theories/NccProofs.v
theories/NccProps.v
theories/VioModel.v
theories/VioSpec.v
theories/VioProofs.v
theories/VioProps.v
theories/RlxModel.v
theories/RlxSpec.v
theories/OrdProofs.v
theories/Ord2Proofs.v
theories/RlxProofs.v
theories/Rlx2Proofs.v
theories/RlxProps.v
theories/PerModel.v
theories/PerSpec.v
theories/PerProofs.v
theories/Per2Proofs.v
theories/Per3Proofs.v
theories/PerProps.v
theories/GfProofs.v
theories/TauProofs.v
theories/TauProps.v
