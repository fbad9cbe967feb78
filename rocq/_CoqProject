-Q theories Verif
theories/Base.v
theories/Lattice.v
theories/BaseLemmas.v
theories/LatticeSpec.v
theories/LatticeProofs.v
theories/Tilings.v
theories/LatticeProofs2.v
theories/LatticeProps.v
theories/Tensor.v
theories/TensorLemmas.v
theories/Text.v
theories/TextLemmas.v
theories/TensorIO.v
theories/TensorIOSpec.v
theories/TensorIOProofs.v
theories/BasisIOProofs.v
theories/TensorIOProps.v
theories/StateIO.v
theories/StateIOSpec.v
theories/StateIOProofs.v
theories/StateIOProofs2.v
theories/StateIOProps.v
theories/Ctm.v
theories/CtmSpec.v
theories/CtmProofs.v
theories/CtmProofs2.v
theories/CtmExamples.v
theories/CtmProps.v
theories/Conv.v
theories/ConvSpec.v
theories/ConvProofs.v
theories/ConvProps.v
theories/Trunc.v
theories/TruncSpec.v
theories/TruncProofs.v
theories/TruncProps.v
theories/Proj.v
theories/ProjSpec.v
theories/ProjProofs.v
theories/ProjProps.v
theories/Flt.v
theories/Armijo.v
theories/ArmijoSpec.v
theories/ArmijoProofs.v
theories/ArmijoProps.v
theories/Lbfgs.v
theories/LbfgsSpec.v
theories/FdGrad.v
theories/FdSpec.v
theories/LbfgsProofs.v
theories/LbfgsProofs2.v
theories/LbfgsProofs3.v
theories/LbfgsDir.v
theories/FdProofs.v
theories/LbfgsExamples.v
theories/LbfgsWrap.v
theories/LbfgsProps.v
theories/Sgd.v
theories/SgdSpec.v
theories/SgdExamples.v
theories/SgdProofs.v
theories/SgdProps.v
theories/Extend.v
theories/ExtendSpec.v
theories/ExtendProofs.v
theories/ExtendProofs2.v
theories/ExtendProps.v
theories/Perm.v
theories/PermSpec.v
theories/PermProofs.v
theories/PermProofs2.v
theories/PermProps.v
theories/Su2.v
theories/Su2Spec.v
theories/Su2Proofs.v
theories/Su2Props.v
theories/C4v.v
theories/C4vSpec.v
theories/C4vProofs.v
theories/C4vProofs2.v
theories/C4vProps.v
theories/Config.v
theories/ConfigSpec.v
theories/ConfigProofs.v
theories/ConfigProofs2.v
theories/ConfigProofs3.v
theories/ConfigProps.v
theories/U1Basis.v
theories/U1BasisSpec.v
theories/U1BasisProofs.v
theories/U1BasisProofs2.v
theories/U1BasisProofs3.v
theories/U1BasisProps.v
theories/SymTen.v
theories/SymTenSpec.v
theories/SymTenProofs.v
theories/SymTenProofs2.v
theories/SymTenExamples.v
theories/SymTenProps.v
theories/Plaq.v
theories/PlaqSpec.v
theories/PlaqProofs.v
theories/PlaqProofs2.v
theories/PlaqProofs3.v
theories/PlaqProofs4.v
theories/PlaqProofs5.v
theories/PlaqProofs6.v
theories/PlaqProofs7.v
theories/PlaqProofs8.v
theories/PlaqProofs9.v
theories/PlaqProofs10.v
theories/PlaqExamples.v
theories/PlaqProps.v
theories/Net.v
theories/NetSpec.v
theories/NetProofs.v
theories/NetProofs2.v
theories/NetProofs3.v
theories/Corners.v
theories/CornersSpec.v
theories/CornersProofs.v
theories/CornersProofs2.v
theories/CornersProofs3.v
theories/CornersProofs4.v
theories/CornersProofs5.v
theories/CornersExamples.v
theories/CornersProps.v
theories/Rdm.v
theories/RdmSpec.v
theories/RdmProofs.v
theories/RdmProofs2.v
theories/RdmProofs3.v
theories/RdmProofs4.v
theories/RdmProofs5.v
theories/RdmProofs6.v
theories/RdmExamples.v
theories/RdmProps.v
theories/Unroll.v
theories/UnrollSpec.v
theories/UnrollProofs.v
theories/UnrollProofs2.v
theories/UnrollExamples.v
theories/UnrollProps.v
theories/Weights.v
theories/WeightsSpec.v
theories/WeightsProofs.v
theories/WeightsProofs2.v
theories/WeightsProofs3.v
theories/WeightsExamples.v
theories/WeightsProps.v
theories/Corr.v
theories/CorrSpec.v
theories/CorrProofs.v
theories/CorrProofs2.v
theories/CorrProofs3.v
theories/CorrProofs4.v
theories/CorrProofs5.v
theories/CorrProofs6.v
theories/CorrProofs7.v
theories/CorrProofs8.v
theories/GaussQ.v
theories/CorrExamples.v
theories/CorrExamples2.v
theories/CorrProps.v
theories/OptRun.v
theories/OptRunSpec.v
theories/OptRunProofs.v
theories/OptRunProofs2.v
theories/OptRunProofs3.v
theories/OptRunProofs4.v
theories/OptRunProofs5.v
theories/OptRunProofs6.v
theories/OptRunProofs7.v
theories/OptRunExamples.v
theories/OptRunWrap.v
theories/OptRunProps.v
theories/OptCurSpec.v
theories/OptCurProofs.v
theories/OptCurExamples.v
theories/OptCurProps.v
theories/NetSym.v
theories/CtmC4v.v
theories/CtmC4vSpec.v
theories/CtmC4vProofs.v
theories/CtmC4vProofs2.v
theories/CtmC4vProofs3.v
theories/CtmC4vProofs4.v
theories/CtmC4vExamples.v
theories/CtmC4vProps.v
theories/RdmPost.v
theories/RdmPostSpec.v
theories/RdmPostProofs.v
theories/RdmPostProofs2.v
theories/RdmPostExamples.v
theories/RdmPostProps.v
theories/StateCk.v
theories/StateCkSpec.v
theories/StateCkProofs.v
theories/StateCkProofs2.v
theories/StateCkProofs3.v
theories/StateCkExamples.v
theories/StateCkProps.v
theories/LcIO.v
theories/LcIOSpec.v
theories/LcIOProofs.v
theories/LcIOProofs2.v
theories/LcIOProofs3.v
theories/LcIOProofs4.v
theories/LcBondSpec.v
theories/LcIOProofs5.v
theories/LcIOExamples.v
theories/LcIOProps.v
theories/LcBondProps.v
theories/DecompGrad.v
theories/DecompGradSpec.v
theories/DecompGradProofs.v
theories/DecompGradProofs2.v
theories/DecompGradProofs3.v
theories/DecompGradProofs4.v
theories/DecompGradProofs5.v
theories/DecompGradExamples.v
theories/DecompGradProps.v
theories/NetTrace.v
theories/RdmC4v.v
theories/RdmC4vSpec.v
theories/RdmC4vProofs.v
theories/RdmC4vProofs2.v
theories/RdmC4vProofs3.v
theories/RdmC4vExamples.v
theories/RdmC4vProps.v
theories/CorrC4v.v
theories/CorrC4vSpec.v
theories/NetEye.v
theories/CorrC4vProofs.v
theories/CorrC4vProofs2.v
theories/CorrC4vProofs3.v
theories/CorrC4vProofs4.v
theories/CorrC4vProofs5.v
theories/NetHom.v
theories/CorrC4vExamples.v
theories/CorrC4vProps.v
theories/Transfer.v
theories/TransferSpec.v
theories/TransferProofs.v
theories/TransferProofs2.v
theories/TransferProofs3.v
theories/TransferExamples.v
theories/TransferProps.v
theories/NetDot.v
theories/NetDot2.v
theories/ChainProofs.v
theories/EhSpec.v
theories/EhProofs.v
theories/EhProofs2.v
theories/EhExamples.v
theories/EhProps.v
theories/EnvInit.v
theories/EnvInitSpec.v
theories/EnvInitProofs.v
theories/EnvInitProofs2.v
theories/EnvInitProofs3.v
theories/EnvInitProofs4.v
theories/EnvInitProofs5.v
theories/EnvInitExamples.v
theories/EnvInitProps.v
theories/Aklt.v
theories/AkltSpec.v
theories/AkltProofs.v
theories/AkltProofs2.v
theories/AkltProofs3.v
theories/AkltProofs4.v
theories/AkltProps.v
theories/Bip.v
theories/BipSpec.v
theories/BipProofs.v
theories/BipProofs2.v
theories/BipProofs3.v
theories/BipProofs4.v
theories/BipProofs5.v
theories/BipProofs6.v
theories/BipProofs7.v
theories/BipProofs8.v
theories/BipExamples.v
theories/BipProps.v
theories/Su3.v
theories/Su3Num.v
theories/Su3Spec.v
theories/Su3Proofs.v
theories/Su3Proofs2.v
theories/Su3Proofs3.v
theories/Su3Proofs4.v
theories/Su3Proofs5.v
theories/Su3Examples.v
theories/Su3Props.v
theories/Kag.v
theories/KagSpec.v
theories/KagProofs.v
theories/KagProofs2.v
theories/KagExamples.v
theories/KagProps.v
theories/RdmKag.v
theories/RdmKagSpec.v
theories/RdmKagProofs.v
theories/RdmKagProofs2.v
theories/RdmKagProofs3.v
theories/RdmKagRun.v
theories/RdmKagProofs4.v
theories/RdmKagProofs5.v
theories/RdmKagProofs6.v
theories/RdmKagExamples.v
theories/RdmKagProps.v
theories/KagE.v
theories/KagESpec.v
theories/KagEProofs.v
theories/KagEProofs2.v
theories/KagEProofs3.v
theories/KagEProofs4.v
theories/KagEProofs5.v
theories/KagEExamples.v
theories/KagEProps.v
theories/Ipess.v
theories/IpessSpec.v
theories/IpessProofs.v
theories/IpessProofs2.v
theories/IpessProofs3.v
theories/IpessProofs4.v
theories/IpessProofs5.v
theories/IpessProofs6.v
theories/IpessProps.v
theories/IpessExamples.v
theories/D2Kag.v
theories/D2KagSpec.v
theories/D2KagProofs.v
theories/D2KagProofs2.v
theories/D2KagProofs3.v
theories/D2KagProps.v
theories/D2KagExamples.v
theories/Rsvd.v
theories/RsvdSpec.v
theories/RsvdProofs.v
theories/RsvdProps.v
theories/RsvdExamples.v
theories/Sym.v
theories/SymSpec.v
theories/SymProofs.v
theories/SymProps.v
theories/SymExamples.v
theories/Lobpcg.v
theories/LobpcgSpec.v
theories/LobpcgProofs.v
theories/LobpcgProps.v
theories/LobpcgExamples.v
