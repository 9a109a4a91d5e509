-Q theories Verif
theories/Base.v
theories/Arith.v
theories/Geometry.v
theories/Elements.v
theories/Polyline.v
theories/Procedures.v
theories/Refine.v
theories/Triangulator.v
theories/Interface.v
theories/Json.v
theories/Display.v
theories/Main.v
theories/ArithR.v
theories/ArithF.v
theories/P_Base.v
theories/Spec.v
theories/P_Trn.v
theories/P_Fuel.v
theories/P_Triangulator.v
theories/P_Poly.v
theories/P_Arrange.v
theories/P_Vertices.v
theories/P_Flood.v
theories/P_Refine.v
theories/SpecI.v
theories/P_Elements.v
theories/P_Interface.v
theories/SpecR.v
theories/P_R1.v
theories/P_R2.v
theories/P_R3.v
theories/P_R4.v
theories/P_Contains.v
theories/P_R5.v
theories/P_R6.v
theories/P_RX.v
theories/SpecD.v
theories/P_D1.v
theories/P_D2.v
theories/P_D3.v
theories/P_Cavity.v
theories/P_D4.v
theories/P_D5.v
theories/P_D6.v
theories/P_D7.v
theories/P_D8.v
theories/SpecP.v
theories/P_Fill.v
theories/P_Fill2.v
theories/P_Slide.v
theories/P_Region.v
theories/P_Region2.v
theories/P_Region3.v
theories/P_Polygon.v
theories/P_Polygon2.v
theories/P_Polygon3.v
theories/Samples.v
theories/P_Checks.v
theories/P_Trn2.v
theories/P_Tri2.v
theories/P_Refuted.v
theories/P_Refuted2.v
theories/P_Refuted3.v
theories/P_Refuted4.v
theories/P_Refuted5.v
theories/P_Refuted6.v
theories/P_Refuted7.v
theories/P_Refuted8.v
theories/P_Refuted9.v
theories/SpecM.v
theories/P_Hull.v
theories/P_Worked.v
theories/P_Stages.v
theories/P_Bool.v
theories/P_Nest.v
theories/P_Checks2.v
theories/SpecC.v
theories/P_Zone.v
theories/P_C1.v
theories/P_C2.v
theories/P_C3.v
theories/P_C4.v
theories/P_C5.v
theories/P_C6.v
theories/P_C7.v
theories/P_C8.v
theories/P_C9.v
theories/SpecE.v
theories/P_E1.v
theories/P_E2.v
theories/P_E3.v
theories/P_E4.v
theories/P_E5.v
theories/P_E6.v
theories/P_E7.v
theories/P_E8.v
theories/P_E9.v
theories/P_F1.v
theories/P_F2.v
theories/P_F3.v
theories/P_G1.v
theories/P_G2.v
theories/P_G3.v
theories/P_G4.v
theories/P_G5.v
theories/P_G6.v
theories/SpecS.v
theories/SpecK.v
theories/P_H1.v
theories/SpecJ.v
theories/P_J1.v
theories/P_J2.v
theories/P_J3.v
theories/P_K1.v
theories/P_K2.v
theories/P_K3.v
theories/P_K4.v
theories/P_K5.v
theories/P_K6.v
theories/P_K7.v
theories/P_K8.v
theories/P_K9.v
theories/P_KA.v
theories/SpecL.v
theories/P_L1.v
theories/SpecQ.v
theories/P_L2.v
theories/P_L3.v
theories/P_L4.v
theories/SpecT.v
theories/P_L5.v
theories/SpecF.v
theories/SpecU.v
theories/SpecV.v
theories/P_Z1.v
theories/P_Z2.v
theories/P_Z3.v
theories/P_Z4.v
theories/P_Z5.v
theories/P_Z6.v
theories/P_Z7.v
theories/P_Z8.v
theories/P_Z9.v
theories/P_Z10.v
theories/P_Y1.v
theories/P_Y2.v
theories/P_Y3.v
theories/P_Y4.v
theories/P_Y5.v
theories/P_Y6.v
theories/P_Y7.v
theories/P_V1.v
theories/P_V2.v
theories/P_V3.v
theories/T_FloatMesh.v
theories/T_Geometry.v
theories/T_Polyline.v
theories/T_Triangulation.v
theories/T_Vertices.v
theories/T_Triangulator.v
theories/T_Refine.v
theories/T_Interface.v
theories/T_Fuel.v
theories/T_Delaunay.v
theories/T_Polygon.v
theories/T_Constrained.v
theories/T_Convex.v
theories/T_Segments.v
theories/T_Holes.v
theories/T_Boolean.v
theories/T_Input.v
theories/T_Program.v
theories/T_Float.v
theories/T_Drawing.v
theories/T_Turns.v
theories/T_SplitMap.v
theories/SpecW.v
theories/P_W1.v
theories/P_W2.v
theories/P_W3.v
theories/P_Main.v
theories/P_Ff1.v
theories/T_Json.v
theories/SpecX.v
theories/SpecN.v
theories/SpecMain.v
theories/SpecO.v
theories/P_Ar1.v
theories/SpecY.v
theories/P_W4.v
theories/SpecZ.v
theories/P_See.v
theories/P_X1.v
theories/P_X2.v
theories/P_X3.v
theories/P_Cw1.v
theories/P_Cw2.v
theories/P_Cw3.v
theories/T_Circle.v
theories/T_More.v
theories/T_Refuted.v
theories/Conformance.v
theories/Conformance2.v
theories/P_Count1.v
theories/P_Count2.v
theories/P_Count3.v
theories/P_Count4.v
theories/T_Count.v
theories/T_Edges.v
theories/T_Clockwise.v
theories/T_Main.v
theories/T_FillIff.v
theories/T_Arrange.v
theories/T_See.v
theories/SpecShow.v
theories/P_Show.v
theories/T_Show.v
theories/P_Round.v
theories/T_Rounds.v
theories/P_Same.v
theories/T_Same.v
theories/P_Angle.v
theories/P_Angle2.v
theories/T_Angle.v
theories/P_Made.v
theories/T_Made.v
theories/P_Z11.v
theories/P_Z12.v
theories/T_Quiet.v
theories/P_Z13.v
theories/P_Z14.v
theories/P_Z15.v
theories/P_Refuted10.v
theories/T_Cross.v
theories/P_Z16.v
theories/T_Gabriel.v
theories/P_Sort.v
theories/T_Sort.v
theories/P_Z17.v
theories/P_Refuted11.v
theories/T_Files.v
theories/P_Y8.v
theories/P_Y9.v
theories/T_Quad.v
theories/SpecRej.v
theories/P_Reject.v
theories/T_Reject.v
theories/P_Ring1.v
theories/T_Ring1.v
