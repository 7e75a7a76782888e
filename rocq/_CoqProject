-Q theories Verif
theories/Num.v
theories/Loops.v
theories/Index.v
theories/Modes.v
theories/ListFacts.v
theories/IndexFacts.v
theories/LoadFacts.v
theories/Prop_Index.v
theories/ModesFacts.v
theories/StatesFacts.v
theories/ResFacts.v
theories/ResWitness.v
theories/Prop_Resonance.v
theories/Anharm.v
theories/AnharmFacts.v
theories/EnergyFacts.v
theories/FermiFacts.v
theories/FermiWitness.v
theories/Prop_Anharm.v
theories/VibRot.v
theories/Distort.v
theories/F64Facts.v
theories/VibRotFacts.v
theories/SymRotFacts.v
theories/VibRotWitness.v
theories/DistortFacts.v
theories/SexticFacts.v
theories/SexticNan.v
theories/Prop_VibRot.v
theories/Prop_Distort.v
theories/Transform.v
theories/TransformFacts.v
theories/RotFacts.v
theories/NormalFacts.v
theories/HarmFacts.v
theories/ModeFacts.v
theories/ZeroFacts.v
theories/ReportFacts.v
theories/Prop_Transform.v
theories/SymAnharm.v
theories/SymFacts.v
theories/SymExact.v
theories/SymE0.v
theories/SymWitness.v
theories/Prop_SymAnharm.v
theories/Polyads.v
theories/PolyadFacts.v
theories/PolyadExact.v
theories/PolyadWitness.v
theories/Prop_Polyads.v
theories/Geom.v
theories/Report.v
theories/GeomFacts.v
theories/AlignFacts.v
theories/AlignExact.v
theories/IrrepFacts.v
theories/OutputFacts.v
theories/OrientFacts.v
theories/Prop_Geom.v
theories/Text.v
theories/TextFacts.v
theories/RoundFacts.v
theories/DummyFacts.v
theories/DumpFacts.v
theories/Prop_Text.v
theories/SpacingFacts.v
theories/Prop_Input.v
theories/InertiaFacts.v
theories/FormFacts.v
theories/TensorFacts.v
theories/ReductionFacts.v
theories/Prop_Reduction.v
theories/SymTopFacts.v
theories/Prop_SymTop.v
theories/DunhamFacts.v
theories/Prop_Dunham.v
theories/PerturbFacts.v
theories/PerturbSum.v
theories/PerturbLevels.v
theories/Prop_Perturb.v
theories/SymPerturb.v
theories/SymLevels.v
theories/Prop_SymPerturb.v
theories/VanVleck.v
theories/VanVleckSum.v
theories/VanVleckPairs.v
theories/VanVleckModel.v
theories/Prop_VanVleck.v
theories/SymGtu.v
theories/Prop_SymGtu.v
theories/VibPerturb.v
theories/Prop_VibPerturb.v
theories/SymVib.v
theories/StateQuanta.v
theories/Prop_SymVib.v
theories/Finish.v
theories/FinishFacts.v
theories/RunFacts.v
theories/RunSecond.v
theories/FinishWitness.v
theories/Prop_Run.v
theories/SignFacts.v
theories/SignSym.v
theories/RangeFacts.v
theories/SameFinish.v
theories/SameRun.v
theories/SignRun.v
theories/SameWitness.v
theories/EckartFacts.v
theories/RunRot.v
theories/Prop_Signs.v
theories/Prop_Eckart.v
theories/RunFermi.v
theories/Prop_RunFermi.v
theories/OutText.v
theories/OutFacts.v
theories/OutTables.v
theories/OutRun.v
theories/Prop_Out.v
theories/Program.v
theories/ProgramFacts.v
theories/BlankFacts.v
theories/ProgramRun.v
theories/Prop_Program.v
theories/FrameFacts.v
theories/FrameWitness.v
theories/RotFiles.v
theories/TriangleWitness.v
theories/SexticFiles.v
theories/Prop_Frame.v
theories/Prop_SexticFiles.v
theories/SumRule.v
theories/RotorMech.v
theories/MechFiles.v
theories/MechWitness.v
theories/Prop_Classical.v
theories/Threefold.v
theories/ThreeForm.v
theories/AlignSign.v
theories/TopRun.v
theories/ThreeModes.v
theories/ThreeRun.v
theories/ThreeWitness.v
theories/Prop_Threefold.v
theories/ThreeRot.v
theories/ThreeConst.v
theories/PyramidWitness.v
theories/PyramidRun.v
theories/Prop_ThreeConst.v
theories/LinearModes.v
theories/LinearRun.v
theories/LinearConst.v
theories/LinearWitness.v
theories/Prop_Linear.v
theories/ThreeDistort.v
theories/PyramidDistort.v
theories/Prop_ThreeDistort.v
theories/LinearMech.v
theories/LinearUnique.v
theories/LinearDistort.v
theories/LinearDistortWitness.v
theories/Prop_LinearDistort.v
theories/DiatomicRun.v
theories/DiatomicTurned.v
theories/DiatomicWitness.v
theories/Prop_Diatomic.v
theories/PairWitness.v
theories/Prop_DiatomicFrame.v
theories/DiatomicFiles.v
theories/BondWitness.v
theories/Prop_DiatomicFiles.v
theories/LinearFiles.v
theories/RodWitness.v
theories/Prop_LinearFiles.v
theories/DumpText.v
theories/DumpRun.v
theories/Prop_Dump.v
theories/SavedText.v
theories/SavedRun.v
theories/Prop_Saved.v
theories/GaussRun.v
theories/Prop_Gauss.v
theories/TableText.v
theories/TableFacts.v
theories/Prop_Table.v
