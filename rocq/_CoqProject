-Q theories Verif
theories/Model_Base.v
theories/Spec_Base.v
theories/Proof_Base.v
theories/Model_Basis.v
theories/Spec_Basis.v
theories/Spec_Eval.v
theories/Proof_Blossom.v
theories/Proof_Basis.v
theories/Proof_Ders.v
theories/Proof_Eval.v
theories/Proof_PropBasis.v
theories/Proof_ExBasis.v
theories/Prop_Basis.v
theories/Model_Knots.v
theories/Proof_Refine.v
theories/Proof_Insert.v
theories/Proof_Boehm.v
theories/Proof_PropInsert.v
theories/Prop_Insert.v
theories/Proof_Continuity.v
theories/Proof_Trim.v
theories/Model_Removal.v
theories/Spec_Curve.v
theories/Proof_Remove.v
theories/Proof_Remove2.v
theories/Proof_Unique.v
theories/Proof_PropRemove.v
theories/Proof_PropRemove2.v
theories/Prop_Removal.v
theories/Model_Rational.v
theories/Model_Curve.v
theories/Proof_Total.v
theories/Proof_Ctor.v
theories/Proof_Affine.v
theories/Spec_Class.v
theories/Proof_Curve.v
theories/Proof_Invariant.v
theories/Proof_PropCurve.v
theories/Prop_Curve.v
theories/Model_Math.v
theories/Spec_Knots.v
theories/Proof_Knots.v
theories/Proof_Builders.v
theories/Proof_Builders2.v
theories/Prop_Knots.v
theories/Spec_Rational.v
theories/Proof_Rational.v
theories/Proof_Quotient.v
theories/Proof_PropRational.v
theories/Prop_Rational.v
theories/Model_Surface.v
theories/Spec_Surface.v
theories/Proof_Surface.v
theories/Proof_Surface2.v
theories/Proof_Surface3.v
theories/Proof_Grid.v
theories/Proof_SurfEdit.v
theories/Proof_SurfEdit2.v
theories/Proof_PropSurface.v
theories/Prop_Surface.v
theories/Model_Mesh.v
theories/Spec_Mesh.v
theories/Spec_MeshEdit.v
theories/Proof_Mesh.v
theories/Proof_Mesh2.v
theories/Proof_Mesh3.v
theories/Proof_Mesh4.v
theories/Proof_Mesh5.v
theories/Proof_Mesh6.v
theories/Proof_Mesh7.v
theories/Proof_Mesh8.v
theories/Proof_Mesh9.v
theories/Proof_Mesh10.v
theories/Proof_PropMesh.v
theories/Proof_PropMesh2.v
theories/Proof_PropMesh3.v
theories/Proof_PropMesh4.v
theories/Prop_Mesh.v
theories/Model_Geom.v
theories/Model_Tess.v
theories/Spec_Geom.v
theories/Spec_Tess.v
theories/Proof_Plane.v
theories/Proof_Tess.v
theories/Proof_Tess2.v
theories/Proof_Tess3.v
theories/Proof_Tess4.v
theories/Proof_Tess5.v
theories/Proof_PropTess.v
theories/Proof_Tess6.v
theories/Proof_Tess7.v
theories/Proof_PropTess2.v
theories/Prop_Tess.v
theories/Proof_Geom.v
theories/Proof_Geom2.v
theories/Proof_Geom3.v
theories/Prop_Geom.v
theories/Proof_Smooth.v
theories/Prop_Smooth.v
theories/Proof_Band.v
theories/Model_Interp.v
theories/Spec_Interp.v
theories/Proof_Interp.v
theories/Proof_Interp2.v
theories/Proof_Interp3.v
theories/Proof_Interp4.v
theories/Prop_Interp.v
theories/Model_Vec.v
theories/Model_Build.v
theories/Spec_Build.v
theories/Proof_Build.v
theories/Proof_Build2.v
theories/Proof_PropBuild.v
theories/Prop_Build.v
theories/Model_Motion.v
theories/Spec_Motion.v
theories/Proof_Motion.v
theories/Prop_Motion.v
theories/Model_Wrap.v
theories/Spec_Wrap.v
theories/Proof_Wrap.v
theories/Proof_Wrap2.v
theories/Proof_Wrap3.v
theories/Proof_Wrap4.v
theories/Prop_Wrap.v
theories/Model_Batch.v
theories/Spec_Batch.v
theories/Proof_Batch.v
theories/Prop_Batch.v
theories/Model_Text.v
theories/Spec_Text.v
theories/Proof_Text.v
theories/Prop_Text.v
theories/Model_Wire.v
theories/Spec_Wire.v
theories/Proof_Wire.v
theories/Proof_Wire2.v
theories/Prop_Wire.v
theories/Model_Json.v
theories/Spec_Json.v
theories/Proof_Json.v
theories/Prop_Json.v
theories/Model_Tfi.v
theories/Spec_Tfi.v
theories/Proof_Tfi.v
theories/Proof_Tfi2.v
theories/Prop_Tfi.v
theories/Model_Elevate.v
theories/Spec_Elevate.v
theories/Proof_Elevate.v
theories/Proof_Elevate2.v
theories/Proof_Elevate3.v
theories/Proof_Elevate4.v
theories/Proof_Elevate5.v
theories/Proof_Elevate6.v
theories/Prop_Elevate.v
theories/Model_Unify.v
theories/Spec_Unify.v
theories/Proof_Unify.v
theories/Proof_Unify2.v
theories/Proof_Unify3.v
theories/Proof_Unify4.v
theories/Proof_Unify5.v
theories/Proof_Join.v
theories/Proof_Join2.v
theories/Proof_Join3.v
theories/Proof_PropUnify.v
theories/Prop_Unify.v
theories/Model_Robust.v
theories/Spec_Robust.v
theories/Proof_Robust1.v
theories/Proof_Robust2.v
theories/Proof_Robust3.v
theories/Proof_Robust4.v
theories/Proof_Robust5.v
theories/Proof_Robust6.v
theories/Proof_Robust7.v
theories/Proof_PropRobust.v
theories/Prop_Robust.v
theories/Proof_Del1.v
theories/Proof_Del2.v
theories/Proof_Del3.v
theories/Proof_PropTess3.v
theories/Model_Skin.v
theories/Spec_Skin.v
theories/Proof_Skin1.v
theories/Proof_Skin2.v
theories/Proof_Skin3.v
theories/Proof_Skin4.v
theories/Proof_Skin5.v
theories/Proof_Skin6.v
theories/Proof_Skin7.v
theories/Proof_Skin8.v
theories/Proof_Skin9.v
theories/Proof_Zeros.v
theories/Proof_SW.v
theories/Spec_Solve.v
theories/Proof_Gauss.v
theories/Proof_SW2.v
theories/Proof_SW3.v
theories/Proof_PropSkin.v
theories/Prop_Skin.v
theories/Prop_Solve.v
theories/Spec_Approx.v
theories/Proof_Lsq.v
theories/Proof_PropApprox.v
theories/Prop_Approx.v
theories/Model_Gordon.v
theories/Spec_Gordon.v
theories/Proof_Gordon1.v
theories/Proof_Gordon2.v
theories/Proof_Gordon3.v
theories/Proof_PropGordon.v
theories/Prop_Gordon.v
theories/Proof_Gordon4.v
theories/Proof_Gordon5.v
theories/Proof_Gordon6.v
theories/Proof_Gordon7.v
theories/Proof_Gordon8.v
theories/Proof_PropGordon2.v
theories/Model_Spine.v
theories/Spec_Spine.v
theories/Proof_Spine1.v
theories/Proof_Spine2.v
theories/Proof_Spine3.v
theories/Proof_Spine4.v
theories/Proof_Spine5.v
theories/Proof_Spine6.v
theories/Proof_PropSpine.v
theories/Proof_PropSpine2.v
theories/Prop_Spine.v
theories/Model_Shape.v
theories/Spec_Shape.v
theories/Proof_Shape1.v
theories/Proof_Shape2.v
theories/Proof_Shape3.v
theories/Proof_Shape4.v
theories/Proof_Shape5.v
theories/Proof_Shape6.v
theories/Proof_Shape7.v
theories/Proof_Shape8.v
theories/Proof_Shape9.v
theories/Proof_PropShape.v
theories/Prop_Shape.v
theories/Model_Connect.v
theories/Spec_Connect.v
theories/Proof_Connect1.v
theories/Proof_Connect2.v
theories/Proof_Connect3.v
theories/Proof_Connect4.v
theories/Proof_Connect5.v
theories/Proof_Connect6.v
theories/Proof_PropConnect.v
theories/Prop_Connect.v
theories/Model_Stools.v
theories/Spec_Stools.v
theories/Proof_Stools1.v
theories/Proof_Stools2.v
theories/Proof_Stools3.v
theories/Proof_Stools4.v
theories/Proof_Stools5.v
theories/Proof_Stools6.v
theories/Proof_PropStools.v
theories/Prop_Stools.v
theories/Spec_Loftapprox.v
theories/Proof_Loftapprox.v
theories/Proof_Loftapprox2.v
theories/Proof_Loftapprox3.v
theories/Proof_Loftapprox4.v
theories/Proof_PropLoftapprox.v
theories/Prop_Loftapprox.v
theories/Model_Analysis.v
theories/Spec_Analysis.v
theories/Proof_Analysis.v
theories/Proof_Analysis2.v
theories/Proof_Analysis3.v
theories/Proof_Analysis4.v
theories/Proof_PropAnalysis.v
theories/Prop_Analysis.v
theories/Model_Offset.v
theories/Spec_Offset.v
theories/Proof_Offset.v
theories/Proof_PropOffset.v
theories/Prop_Offset.v
theories/Model_Extrema.v
theories/Spec_Extrema.v
theories/Proof_Extrema.v
theories/Proof_Extrema2.v
theories/Proof_PropExtrema.v
theories/Prop_Extrema.v
theories/Model_Ellip.v
theories/Spec_Ellip.v
theories/Proof_Ellip.v
theories/Proof_Ellip2.v
theories/Proof_PropEllip.v
theories/Prop_Ellip.v
theories/Model_Refine.v
theories/Spec_Refine.v
theories/Proof_TessRefine.v
theories/Proof_TessRefine2.v
theories/Proof_PropTessRefine.v
theories/Prop_TessRefine.v
theories/Spec_History.v
theories/Proof_History.v
theories/Prop_History.v
theories/Model_MshEdge.v
theories/Spec_MshEdge.v
theories/Proof_MshEdge.v
theories/Proof_PropMshEdge.v
theories/Prop_MshEdge.v
theories/Model_Transform.v
theories/Spec_Transform.v
theories/Proof_Transform.v
theories/Proof_PropTransform.v
theories/Prop_Transform.v
theories/Proof_Transform2.v
theories/Proof_Basis2.v
theories/Prop_Basis2.v
theories/Proof_Geom4.v
theories/Model_Iges.v
theories/Spec_Iges.v
theories/Proof_Iges.v
theories/Prop_Iges.v
theories/Model_Cuda.v
theories/Proof_Cuda.v
theories/Prop_Cuda.v
theories/Model_Quality.v
theories/Spec_Quality.v
theories/Proof_Quality.v
theories/Prop_Quality.v
theories/Proof_Quality2.v
theories/Model_Abscissa.v
theories/Spec_Abscissa.v
theories/Proof_Abscissa.v
theories/Prop_Abscissa.v
theories/Model_Triangle.v
theories/Spec_Triangle.v
theories/Proof_Triangle.v
theories/Prop_Triangle.v
theories/Model_Take.v
theories/Spec_Take.v
theories/Proof_Take.v
theories/Proof_Take2.v
theories/Prop_Take.v
