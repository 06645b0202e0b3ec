-Q theories Verif
theories/PyErr.v
theories/Num.v
theories/Vec.v
theories/Shapes.v
theories/Csg.v
theories/Optics.v
theories/General.v
theories/XReal.v
theories/Spec.v
theories/RVec.v
theories/VecProofs.v
theories/AngleProofs.v
theories/Props_Vec.v
theories/FlatProofs.v
theories/SphereProofs.v
theories/CylProofs.v
theories/ShapeExtra.v
theories/Props_Shape.v
theories/TreeProofs.v
theories/SolidProofs.v
theories/Props_Tree.v
theories/CsgProofs.v
theories/Props_Csg.v
theories/RayProofs.v
theories/GratingProofs.v
theories/Props_Ray.v
theories/RunGen.v
theories/NoFuel.v
theories/RunXr.v
theories/OpticHits.v
theories/StateXr.v
theories/OrderProofs.v
theories/Props_Loop.v
theories/Props_Run.v
theories/Props_Compound.v
theories/Translate.v
theories/Props_Translate.v
theories/ElemXr.v
theories/GenProofs.v
theories/DecSpec.v
theories/PrecProofs.v
theories/Props_General.v
theories/FlatOptic.v
theories/FloatInst.v
theories/Props_Float.v
theories/FloatReal.v
theories/Props_Float64.v
theories/FloatVec.v
theories/FloatHit.v
theories/Props_Accuracy.v
theories/Props_Hit64.v
theories/RepoTests.v
theories/Props_Rehit.v
theories/SceneProofs.v
theories/Props_Scene.v
theories/Props_Train.v
theories/Props_Ball.v
theories/Props_Images.v
theories/Props_Path.v
theories/Printing.v
theories/Props_Print.v
theories/Drawing.v
theories/Props_Draw.v
theories/Rotate.v
theories/Props_Rotate.v
theories/Props_Fermat.v
theories/Props_Reverse.v
theories/Props_Singlet.v
theories/Props_Side.v
theories/Signal.v
theories/Props_Signal.v
theories/Fermi.v
theories/Props_Fermi.v
theories/Helpers.v
theories/Props_Text.v
theories/Props_Files.v
theories/Props_Interp.v
theories/Continue.v
theories/Props_Continue.v
theories/Props_Tangent.v
theories/Props_Infinite.v
theories/FloatRun.v
theories/Props_Run64.v
theories/Props_Focus.v
theories/Props_BallFocus.v
theories/Props_Lensmaker.v
theories/Props_Trace.v
theories/Props_Spectro.v
theories/Props_Nested.v
theories/CsgStart.v
theories/Scenes.v
theories/Props_Scenes.v
theories/CsgExact.v
theories/Props_UnionDiff.v
theories/Props_Build.v
theories/Gratings.v
theories/Props_Gratings.v
theories/Props_Along.v
theories/Props_Touch.v
theories/Scripts.v
theories/Props_Dmd.v
theories/Props_Object.v
theories/Props_Kind.v
theories/Props_Single.v
theories/Props_Again.v
theories/FloatSphere.v
theories/Props_Sphere64.v
theories/ScriptScenes.v
theories/Props_Faerie.v
theories/Props_Matrix.v
theories/Props_Littrow.v
theories/MoreScripts.v
theories/Props_MoreScripts.v
theories/Props_CylScript.v
theories/Props_Reports.v
theories/CompoundScript.v
theories/Props_Unions.v
theories/LensScripts.v
theories/Props_Fan.v
theories/Props_LensScripts.v
theories/Props_Retrace.v
theories/Props_RetraceUnion.v
theories/MirrorImage.v
theories/Props_Mirror.v
theories/Props_Symmetric.v
theories/Normals.v
theories/Props_Skew.v
theories/Props_Depends.v
theories/Props_Leave.v
theories/Props_Count.v
theories/Props_Limit.v
theories/Repr.v
theories/Props_Repr.v
theories/Props_Sources.v
