-Q theories Verif
theories/Base.v
theories/Diff.v
theories/InterpModel.v
theories/InterpSpec.v
theories/InterpProofs.v
theories/InterpProps.v
theories/SolverModel.v
theories/SolverSpec.v
theories/SolverProofs.v
theories/SolverProps.v
theories/SubstepModel.v
theories/SubstepSpec.v
theories/SubstepProofs.v
theories/SubstepProps.v
theories/HistModel.v
theories/HistSpec.v
theories/HistProofs.v
theories/HistProps.v
theories/TextModel.v
theories/TextProofs.v
theories/ParseModel.v
theories/ParseSpec.v
theories/ParseProofs.v
theories/ParseProps.v
theories/NemlMathModel.v
theories/NemlMathSpec.v
theories/NemlMathProofs.v
theories/TruesdellProofs.v
theories/LinDiff.v
theories/LdModel.v
theories/LdProofs.v
theories/LdSpec.v
theories/LdProps.v
theories/GcdProofs.v
theories/NemlMathProps.v
theories/ElasticModel.v
theories/ElasticSpec.v
theories/ElasticProofs.v
theories/ElasticProps.v
theories/SurfModel.v
theories/SurfSpec.v
theories/SurfProofs.v
theories/SurfProps.v
theories/HardModel.v
theories/HardSpec.v
theories/HardProofs.v
theories/HardProps.v
theories/RiModel.v
theories/RiSpec.v
theories/RiProofs.v
theories/RiProps.v
theories/PlastModel.v
theories/PlastSpec.v
theories/PlastProofs.v
theories/PlastEx.v
theories/PlastProps.v
theories/ViscoModel.v
theories/ViscoSpec.v
theories/ViscoProofs.v
theories/YaguchiProofs.v
theories/ViscoMore.v
theories/ViscoCases.v
theories/ViscoProps.v
theories/CreepModel.v
theories/CreepSpec.v
theories/CreepProofs.v
theories/J2CreepProofs.v
theories/CreepPlastProofs.v
theories/CreepEx.v
theories/CreepProps.v
theories/DamageModel.v
theories/DamageSpec.v
theories/DamageProofs.v
theories/WorkDamageProofs.v
theories/EffStressProofs.v
theories/PrincipalProofs.v
theories/SpectralProofs.v
theories/DamagedProofs.v
theories/LarsonProofs.v
theories/DamageEx.v
theories/DamageProps.v
theories/RotModel.v
theories/RotSpec.v
theories/RotProofs.v
theories/RotMatrix.v
theories/RotConv.v
theories/RotAngles.v
theories/RotMore.v
theories/RotTensor.v
theories/RotProps.v
theories/TensorModel.v
theories/TensorSpec.v
theories/TensorProofs.v
theories/TensorProps.v
theories/CrystModel.v
theories/CrystSpec.v
theories/CrystProofs.v
theories/CrystMis.v
theories/CrystMiller.v
theories/CrystLattice.v
theories/CrystSystems.v
theories/CrystTwin.v
theories/CrystProps.v
theories/Blocks.v
theories/SlipModel.v
theories/SlipSpec.v
theories/SlipProofs.v
theories/SlipRule.v
theories/SlipWhole.v
theories/SlipFacts.v
theories/SlipProps.v
theories/CpModel.v
theories/CpSpec.v
theories/CpProofs.v
theories/CpComb.v
theories/CpFacts.v
theories/CpTurn.v
theories/CpProps.v
theories/ScModel.v
theories/ScSpec.v
theories/ScProofs.v
theories/ScMore.v
theories/ScLast.v
theories/ScCase.v
theories/ScProps.v
theories/PolyModel.v
theories/PolySpec.v
theories/PolyProofs.v
theories/PolyMore.v
theories/PolyProps.v
theories/BlockModel.v
theories/BlockSpec.v
theories/BlockProofs.v
theories/BlockProps.v
theories/MatInv.v
theories/CdModel.v
theories/CdSpec.v
theories/CdProofs.v
theories/CdTrans.v
theories/CdRate.v
theories/CdKin.v
theories/CdMore.v
theories/CdPlanes.v
theories/CdProps.v
theories/WalkerModel.v
theories/WalkerSpec.v
theories/WalkerProofs.v
theories/WalkerDeriv.v
theories/WalkerVars.v
theories/WalkerMore.v
theories/WalkerInv.v
theories/WalkerEx.v
theories/WalkerProps.v
theories/NlModel.v
theories/NlSpec.v
theories/NlProofs.v
theories/UniModel.v
theories/UniSpec.v
theories/UniProofs.v
theories/DrvModel.v
theories/DrvSpec.v
theories/DrvProofs.v
theories/DrvDeriv.v
theories/TestsModel.v
theories/TestsSpec.v
theories/TestsProofs.v
theories/TestsElastic.v
theories/TestsMore.v
theories/TestsCreep.v
theories/PyEx.v
theories/TestsEx.v
theories/PyProps.v
theories/BarModel.v
theories/BarSpec.v
theories/BarProofs.v
theories/BreeModel.v
theories/BreeSpec.v
theories/BreeProofs.v
theories/BarEx.v
theories/BarProps.v
theories/AxiModel.v
theories/AxiSpec.v
theories/AxiProofs.v
theories/AxiHist.v
theories/AxiJac.v
theories/AxiEx.v
theories/GradModel.v
theories/GradSpec.v
theories/GradProofs.v
theories/GradMesh.v
theories/AxiProps.v
theories/CycModel.v
theories/CycSpec.v
theories/CycProofs.v
theories/CycMore.v
theories/CycJump.v
theories/CycEx.v
theories/CycProps.v
theories/HcModel.v
theories/HcSpec.v
theories/HcProofs.v
theories/HcMain.v
theories/HcHardSpec.v
theories/HcHard.v
theories/HcWhole.v
theories/HcInit.v
theories/HcEx.v
theories/HcProps.v
theories/GhModel.v
theories/GhSpec.v
theories/GhProofs.v
theories/GhMain.v
theories/GhHist.v
theories/GhHard.v
theories/GhEx.v
theories/GhProps.v
theories/DenseModel.v
theories/DenseProofs.v
theories/DenseProps.v
theories/PoleModel.v
theories/PoleSpec.v
theories/PoleProofs.v
theories/PoleFig.v
theories/PoleIpf.v
theories/PoleEx.v
theories/PoleProps.v
theories/PolyTight.v
theories/PolyTightProps.v
theories/UmatModel.v
theories/UmatSpec.v
theories/UmatProofs.v
theories/UmatEx.v
theories/UmatProps.v
theories/PycModel.v
theories/PycSpec.v
theories/PycProofs.v
theories/PycEx.v
theories/PycProps.v
theories/LatModel.v
theories/LatSpec.v
theories/LatProofs.v
theories/LatEx.v
theories/LatProps.v
theories/ArrModel.v
theories/ArrSpec.v
theories/ArrProofs.v
theories/ArrWrite.v
theories/ArrEx.v
theories/ArrProps.v
theories/YldModel.v
theories/YldSpec.v
theories/YldProofs.v
theories/YldEx.v
theories/YldProps.v
theories/DgModel.v
theories/DgSpec.v
theories/DgProofs.v
theories/DgMore.v
theories/DgEx.v
theories/DgProps.v
theories/LayModel.v
theories/LaySpec.v
theories/LayProofs.v
theories/LayEx.v
theories/LayProps.v
theories/EmModel.v
theories/EmSpec.v
theories/EmProofs.v
theories/EmEx.v
theories/EmProps.v
theories/LenModel.v
theories/LenSpec.v
theories/LenProofs.v
theories/LenEx.v
theories/LenProps.v
theories/TxtSpec.v
theories/TxtProofs.v
theories/TxtProps.v
theories/NyeModel.v
theories/NyeSpec.v
theories/NyeProofs.v
theories/NyeProps.v
theories/DeclModel.v
theories/DeclTable.v
theories/DeclSpec.v
theories/DeclProofs.v
theories/DeclProps.v
theories/StoModel.v
theories/StoSpec.v
theories/StoProofs.v
theories/StoProps.v
theories/HstModel.v
theories/HstSpec.v
theories/HstProofs.v
theories/HstProps.v
theories/CaseProps.v
theories/CaseProps2.v
