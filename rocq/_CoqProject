-Q theories Verif
theories/Base_Float.v
theories/Base_Mem.v
theories/Model_Adapt.v
theories/Model_Advance.v
theories/Model_Ascii.v
theories/Model_Bc.v
theories/Model_Bc3.v
theories/Model_Box.v
theories/Model_Brick.v
theories/Model_Corner.v
theories/Model_Diag.v
theories/Model_Domain.v
theories/Model_Elliptic.v
theories/Model_Exchange.v
theories/Model_Extruded.v
theories/Model_ExtrudedTag.v
theories/Model_Face.v
theories/Model_File.v
theories/Model_FileError.v
theories/Model_Fill.v
theories/Model_FillExec.v
theories/Model_Gauge.v
theories/Model_GeoBc.v
theories/Model_GeoGauge.v
theories/Model_GeoLimiter.v
theories/Model_GeoRpt.v
theories/Model_GeoRun.v
theories/Model_GeoSrc.v
theories/Model_GeoStep.v
theories/Model_GeoTag.v
theories/Model_Geoclaw.v
theories/Model_Geom.v
theories/Model_Ghost.v
theories/Model_Grid.v
theories/Model_Init.v
theories/Model_Iter.v
theories/Model_Map.v
theories/Model_Mesh.v
theories/Model_Metric.v
theories/Model_Options.v
theories/Model_Overlap.v
theories/Model_Packing.v
theories/Model_Patch5.v
theories/Model_Pillow.v
theories/Model_Qinit.v
theories/Model_Regrid.v
theories/Model_Run.v
theories/Model_Search.v
theories/Model_Serial.v
theories/Model_SetAux.v
theories/Model_Solve.v
theories/Model_Step.v
theories/Model_Step5.v
theories/Model_Sync.v
theories/Model_Tag.v
theories/Model_Tikz.v
theories/Model_Timer.v
theories/Model_Topo.v
theories/Model_Util.v
theories/Model_Vtk.v
theories/Proof_Adapt.v
theories/Proof_Advance.v
theories/Proof_Advance2.v
theories/Proof_Advance3.v
theories/Proof_Ascii1.v
theories/Proof_Ascii2.v
theories/Proof_Ascii3.v
theories/Proof_Bc.v
theories/Proof_Bc3.v
theories/Proof_Box.v
theories/Proof_Box2.v
theories/Proof_Corner1.v
theories/Proof_Corner2.v
theories/Proof_Corner3.v
theories/Proof_Corner4.v
theories/Proof_Diag.v
theories/Proof_Diag2.v
theories/Proof_Domain.v
theories/Proof_Domain2.v
theories/Proof_Domain3.v
theories/Proof_Elliptic1.v
theories/Proof_Elliptic10.v
theories/Proof_Elliptic2.v
theories/Proof_Elliptic3.v
theories/Proof_Elliptic4.v
theories/Proof_Elliptic5.v
theories/Proof_Elliptic6.v
theories/Proof_Elliptic7.v
theories/Proof_Elliptic8.v
theories/Proof_Elliptic9.v
theories/Proof_Exchange.v
theories/Proof_Exchange2.v
theories/Proof_Extruded.v
theories/Proof_ExtrudedTag.v
theories/Proof_Face.v
theories/Proof_Face1.v
theories/Proof_Face2.v
theories/Proof_Face3.v
theories/Proof_Face4.v
theories/Proof_Face5.v
theories/Proof_File.v
theories/Proof_File2.v
theories/Proof_FileError.v
theories/Proof_Fill1.v
theories/Proof_Fill10.v
theories/Proof_Fill2.v
theories/Proof_Fill3.v
theories/Proof_Fill4.v
theories/Proof_Fill5.v
theories/Proof_Fill6.v
theories/Proof_Fill7.v
theories/Proof_Fill8.v
theories/Proof_Fill9.v
theories/Proof_Fills.v
theories/Proof_Gauge.v
theories/Proof_Gauge2.v
theories/Proof_GeoBc.v
theories/Proof_GeoGauge.v
theories/Proof_GeoLimiter.v
theories/Proof_GeoRpt.v
theories/Proof_GeoRun.v
theories/Proof_GeoSrc.v
theories/Proof_GeoStep.v
theories/Proof_GeoTag.v
theories/Proof_Geoclaw.v
theories/Proof_Geoclaw2.v
theories/Proof_Geoclaw3.v
theories/Proof_Geom.v
theories/Proof_Ghost.v
theories/Proof_Ghost2.v
theories/Proof_Grid.v
theories/Proof_Grid2.v
theories/Proof_Grid3.v
theories/Proof_Grid4.v
theories/Proof_Grid5.v
theories/Proof_Init.v
theories/Proof_Iter.v
theories/Proof_Iter2.v
theories/Proof_Map1.v
theories/Proof_Map2.v
theories/Proof_Map3.v
theories/Proof_Map4.v
theories/Proof_Map5.v
theories/Proof_Map6.v
theories/Proof_Mesh.v
theories/Proof_Mesh2.v
theories/Proof_Metric1.v
theories/Proof_Metric2.v
theories/Proof_Metric3.v
theories/Proof_Metric4.v
theories/Proof_Metric5.v
theories/Proof_Metric6.v
theories/Proof_Options.v
theories/Proof_Overlap1.v
theories/Proof_Overlap2.v
theories/Proof_Overlap3.v
theories/Proof_Overlap4.v
theories/Proof_Packing.v
theories/Proof_Packing2.v
theories/Proof_Packing3.v
theories/Proof_Packing4.v
theories/Proof_Patch5.v
theories/Proof_Pillow.v
theories/Proof_Qinit.v
theories/Proof_Regrid1.v
theories/Proof_Regrid2.v
theories/Proof_Regrid3.v
theories/Proof_Regrid4.v
theories/Proof_Regrid5.v
theories/Proof_Run.v
theories/Proof_Run2.v
theories/Proof_Search.v
theories/Proof_Search2.v
theories/Proof_Search3.v
theories/Proof_Search4.v
theories/Proof_Serial.v
theories/Proof_SetAux.v
theories/Proof_Solve1.v
theories/Proof_Solve2.v
theories/Proof_Solve3.v
theories/Proof_Solve4.v
theories/Proof_Solve5.v
theories/Proof_Solve6.v
theories/Proof_Solve7.v
theories/Proof_Step0.v
theories/Proof_Step1.v
theories/Proof_Step2.v
theories/Proof_Step3.v
theories/Proof_Step4.v
theories/Proof_Step5.v
theories/Proof_Step5b.v
theories/Proof_Step5c.v
theories/Proof_Step5d.v
theories/Proof_Sync.v
theories/Proof_Sync2.v
theories/Proof_Sync3.v
theories/Proof_Sync4.v
theories/Proof_Sync5.v
theories/Proof_Sync6.v
theories/Proof_Sync7.v
theories/Proof_Sync8.v
theories/Proof_Sync9.v
theories/Proof_Tag.v
theories/Proof_Tikz.v
theories/Proof_Timer.v
theories/Proof_Topo.v
theories/Proof_Topo2.v
theories/Proof_Topo3.v
theories/Proof_Util.v
theories/Proof_Vtk1.v
theories/Proof_Vtk2.v
theories/Proof_Vtk3.v
theories/Proof_Vtk4.v
theories/Proof_Vtk5.v
theories/Proof_Vtk6.v
theories/Proof_Vtk7.v
theories/Prop_Adapt.v
theories/Prop_Advance.v
theories/Prop_Ascii.v
theories/Prop_Bc.v
theories/Prop_Bc3.v
theories/Prop_Box.v
theories/Prop_Brick.v
theories/Prop_Corner.v
theories/Prop_Diag.v
theories/Prop_Domain.v
theories/Prop_Elliptic1.v
theories/Prop_Elliptic2.v
theories/Prop_Elliptic3.v
theories/Prop_Elliptic4.v
theories/Prop_Exchange.v
theories/Prop_Extruded.v
theories/Prop_Extruded2.v
theories/Prop_Extruded3.v
theories/Prop_Extruded4.v
theories/Prop_Face.v
theories/Prop_File.v
theories/Prop_FileError.v
theories/Prop_Fill.v
theories/Prop_FillInst.v
theories/Prop_Gauge.v
theories/Prop_GeoBc.v
theories/Prop_GeoGauge.v
theories/Prop_GeoLimiter.v
theories/Prop_GeoRpt.v
theories/Prop_GeoRun.v
theories/Prop_GeoSrc.v
theories/Prop_GeoStep.v
theories/Prop_GeoTag.v
theories/Prop_Geoclaw.v
theories/Prop_Geoclaw2.v
theories/Prop_Geoclaw3.v
theories/Prop_Geom.v
theories/Prop_Ghost.v
theories/Prop_Grid.v
theories/Prop_Init.v
theories/Prop_Iter.v
theories/Prop_Map.v
theories/Prop_Mesh.v
theories/Prop_Metric.v
theories/Prop_Options.v
theories/Prop_Overlap.v
theories/Prop_Packing.v
theories/Prop_Patch5.v
theories/Prop_Pillow.v
theories/Prop_Qinit.v
theories/Prop_Regrid.v
theories/Prop_Run.v
theories/Prop_Search.v
theories/Prop_Serial.v
theories/Prop_SetAux.v
theories/Prop_Solve.v
theories/Prop_SolveInst.v
theories/Prop_SolveInst2.v
theories/Prop_Step.v
theories/Prop_Step5.v
theories/Prop_Sync.v
theories/Prop_Tag.v
theories/Prop_Tikz.v
theories/Prop_Timer.v
theories/Prop_Topo.v
theories/Prop_Util.v
theories/Prop_Vtk.v
theories/Spec_Adapt.v
theories/Spec_Advance.v
theories/Spec_Ascii.v
theories/Spec_Bc.v
theories/Spec_Bc3.v
theories/Spec_Box.v
theories/Spec_Brick.v
theories/Spec_Corner.v
theories/Spec_Diag.v
theories/Spec_Domain.v
theories/Spec_Elliptic.v
theories/Spec_Elliptic2.v
theories/Spec_Exchange.v
theories/Spec_Extruded.v
theories/Spec_ExtrudedTag.v
theories/Spec_Face.v
theories/Spec_File.v
theories/Spec_FileError.v
theories/Spec_Fill.v
theories/Spec_Gauge.v
theories/Spec_GeoBc.v
theories/Spec_GeoGauge.v
theories/Spec_GeoLimiter.v
theories/Spec_GeoRpt.v
theories/Spec_GeoRun.v
theories/Spec_GeoSrc.v
theories/Spec_GeoStep.v
theories/Spec_GeoTag.v
theories/Spec_Geoclaw.v
theories/Spec_Geom.v
theories/Spec_Ghost.v
theories/Spec_Grid.v
theories/Spec_Init.v
theories/Spec_Iter.v
theories/Spec_Map.v
theories/Spec_Mesh.v
theories/Spec_Metric.v
theories/Spec_Options.v
theories/Spec_Overlap.v
theories/Spec_Packing.v
theories/Spec_Patch5.v
theories/Spec_Pillow.v
theories/Spec_Qinit.v
theories/Spec_Regrid.v
theories/Spec_Run.v
theories/Spec_Search.v
theories/Spec_Serial.v
theories/Spec_SetAux.v
theories/Spec_Solve.v
theories/Spec_Step.v
theories/Spec_Step5.v
theories/Spec_Sync.v
theories/Spec_Tag.v
theories/Spec_Tikz.v
theories/Spec_Timer.v
theories/Spec_Topo.v
theories/Spec_Util.v
theories/Spec_Vtk.v
