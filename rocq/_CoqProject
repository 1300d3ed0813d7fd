-Q theories Verif
theories/Base.v
theories/OrdFacts.v
theories/Pos.v
theories/PFinite.v
theories/MBound.v
theories/MRaw.v
theories/MNormalize.v
theories/Ints.v
theories/MTine.v
theories/MBTree.v
theories/MTineTree.v
theories/MInterval.v
theories/MSelection.v
theories/Conformance.v
theories/Spec.v
theories/Instances.v
theories/PRaw.v
theories/PRaw2.v
theories/PNorm.v
theories/Properties_Raw.v
theories/PIter.v
theories/PInterval.v
theories/Properties_Interval.v
theories/PBTree.v
theories/PTree.v
theories/PTreeOps.v
theories/PTreeIsect.v
theories/PTree2.v
theories/PTree3.v
theories/PTree4.v
theories/PTree5.v
theories/PTree6.v
theories/Spec_Tree.v
theories/PTree7.v
theories/PDebug.v
theories/Properties_Tree.v
theories/Spec_Sel.v
theories/PSel.v
theories/PSel2.v
theories/PSel3.v
theories/PSel4.v
theories/Properties_Selection.v
theories/Properties_Selection2.v
theories/MParse.v
theories/Spec_Parse.v
theories/PParse.v
theories/PParse2.v
theories/Properties_Parse.v
theories/Conformance_Docs.v
theories/Spec_More.v
theories/Properties_More.v
theories/Properties_More2.v
theories/Properties_Selection3.v
theories/Properties_Tree2.v
theories/PSel5.v
theories/Properties_Selection4.v
theories/PBoth.v
theories/Properties_Both.v
theories/Spec_Domain.v
theories/PDomain.v
theories/PDomain2.v
theories/Properties_Domain.v
theories/Properties_Domain2.v
theories/MSerde.v
theories/Properties_Fused.v
theories/Properties_Serde.v
theories/Properties_Serde2.v
theories/Spec_Take.v
theories/Spec_Take2.v
theories/Properties_Serde3.v
theories/Properties_Serde4.v
theories/Spec_Take3.v
theories/Properties_Serde5.v
theories/Properties_Serde6.v
theories/Spec_Take4.v
theories/Properties_Serde7.v
theories/Spec_Take5.v
theories/Properties_Serde8.v
theories/Properties_Serde9.v
theories/Spec_Take6.v
theories/Properties_Serde10.v
theories/Properties_Kinds.v
theories/Properties_Public.v
theories/Properties_ParseErr.v
theories/Spec_History.v
theories/Properties_History.v
theories/MBoundP.v
theories/Properties_BoundP.v
theories/Properties_Outer.v
theories/Properties_UnionAll.v
theories/Properties_Exact.v
theories/Spec_Key.v
theories/PKey.v
theories/Properties_Key.v
theories/Properties_Key2.v
theories/MHash.v
theories/Properties_Hash.v
theories/PSize.v
theories/Properties_Size.v
theories/Spec_Mirror.v
theories/PMirror.v
theories/PMirror2.v
theories/PMirror3.v
theories/Properties_Mirror.v
theories/Properties_Mirror2.v
theories/Spec_Panic.v
theories/PPanic.v
theories/Properties_Panic.v
theories/Spec_Values.v
theories/Properties_Values.v
theories/Properties_Single.v
theories/MCrash.v
theories/PCrash.v
theories/Properties_Crash.v
theories/Spec_TreeHistory.v
theories/PTreeMinus.v
theories/Properties_TreeHistory.v
theories/MFault.v
theories/Spec_Fault.v
theories/Properties_Fault.v
theories/Properties_Exact2.v
theories/Properties_Exact3.v
theories/Properties_Exact4.v
theories/Properties_Ends.v
theories/Properties_Ends2.v
theories/Properties_Fault2.v
theories/Properties_Ends3.v
theories/Properties_Complement.v
theories/Properties_Complement2.v
theories/Properties_Ends4.v
theories/Properties_Complement3.v
theories/MDebug.v
theories/Properties_Fused2.v
theories/Properties_Debug.v
theories/Spec_Debug.v
theories/Properties_Debug2.v
theories/MDebugIter.v
theories/Properties_Debug3.v
theories/Spec_Debug2.v
theories/Properties_Debug4.v
theories/Properties_Public2.v
theories/Properties_Public3.v
theories/Properties_Public4.v
theories/Properties_Public5.v
theories/Properties_Public6.v
theories/Properties_Public7.v
theories/Properties_Public8.v
theories/Properties_Public9.v
