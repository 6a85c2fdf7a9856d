-Q theories Verif
theories/Base_Bytes.v
theories/Base_F64.v
theories/Base_F64Arith.v
theories/Base_Geom.v
theories/Base_Res.v
theories/M_Clip.v
theories/M_Cmp.v
theories/M_Constrained.v
theories/M_Constraint.v
theories/M_Coord.v
theories/M_Extent.v
theories/M_Face.v
theories/M_Geojson.v
theories/M_GeojsonAlias.v
theories/M_Geom.v
theories/M_Gpkg.v
theories/M_Heap.v
theories/M_Hitmap.v
theories/M_Insert.v
theories/M_Intersect.v
theories/M_Kd.v
theories/M_Makevalid.v
theories/M_Mvt.v
theories/M_MvtLayer.v
theories/M_MvtPrepare.v
theories/M_Planar.v
theories/M_Pseudo.v
theories/M_Quadedge.v
theories/M_QuadedgeId.v
theories/M_ResolveEdge.v
theories/M_Ring.v
theories/M_Round.v
theories/M_Rtree.v
theories/M_RtreeAlias.v
theories/M_Simplify.v
theories/M_Slippy.v
theories/M_Strconv.v
theories/M_Subdivision.v
theories/M_Sweep.v
theories/M_Triangle.v
theories/M_Validate.v
theories/M_Walker.v
theories/M_Winding.v
theories/M_Wkb.v
theories/M_Wkt.v
theories/P_Bytes.v
theories/P_Circle.v
theories/P_Classify.v
theories/P_Clip.v
theories/P_Clip2.v
theories/P_Clip3.v
theories/P_Clip4.v
theories/P_Clip5.v
theories/P_Cmp.v
theories/P_Cmp2.v
theories/P_Cmp3.v
theories/P_CmpR.v
theories/P_Constrained.v
theories/P_Constraint.v
theories/P_Constraint2.v
theories/P_Constraint3.v
theories/P_Coord.v
theories/P_Coord2.v
theories/P_Coord3.v
theories/P_Coord4.v
theories/P_Coord5.v
theories/P_Coord6.v
theories/P_Delaunay.v
theories/P_Extent.v
theories/P_Extent2.v
theories/P_F64.v
theories/P_F64Err.v
theories/P_F64Flocq.v
theories/P_F64Grid.v
theories/P_F64Round.v
theories/P_F64Sqrt.v
theories/P_F64X.v
theories/P_Face.v
theories/P_Face2.v
theories/P_Geojson.v
theories/P_Geojson2.v
theories/P_GeojsonAlias.v
theories/P_GeojsonNum.v
theories/P_Geom.v
theories/P_Gpkg.v
theories/P_Heap.v
theories/P_Hitmap.v
theories/P_Hitmap2.v
theories/P_Hitmap3.v
theories/P_Insert.v
theories/P_Insert10.v
theories/P_Insert11.v
theories/P_Insert2.v
theories/P_Insert3.v
theories/P_Insert4.v
theories/P_Insert5.v
theories/P_Insert6.v
theories/P_Insert7.v
theories/P_Insert8.v
theories/P_Insert9.v
theories/P_Intersect.v
theories/P_Intersect2.v
theories/P_Intersect3.v
theories/P_Intersect4.v
theories/P_Kd.v
theories/P_KdR.v
theories/P_List.v
theories/P_Makevalid.v
theories/P_Makevalid2.v
theories/P_Makevalid3.v
theories/P_Makevalid4.v
theories/P_Makevalid5.v
theories/P_Makevalid6.v
theories/P_Mvt.v
theories/P_Mvt2.v
theories/P_MvtLayer.v
theories/P_MvtLayer2.v
theories/P_MvtPrepare.v
theories/P_MvtPrepare2.v
theories/P_MvtPrepare3.v
theories/P_MvtPrepare4.v
theories/P_MvtPrepare5.v
theories/P_Planar.v
theories/P_PlanarLine.v
theories/P_PlanarUniq.v
theories/P_Pseudo.v
theories/P_Pseudo2.v
theories/P_Pseudo3.v
theories/P_Pseudo4.v
theories/P_Pseudo5.v
theories/P_Pseudo6.v
theories/P_Pseudo7.v
theories/P_Pseudo8.v
theories/P_Quadedge.v
theories/P_Quadedge2.v
theories/P_Quadedge3.v
theories/P_Quadedge4.v
theories/P_Quadedge5.v
theories/P_QuadedgeId.v
theories/P_QuadedgeTop.v
theories/P_ResolveEdge.v
theories/P_ResolveEdge2.v
theories/P_ResolveEdge3.v
theories/P_ResolveEdge4.v
theories/P_ResolveEdge5.v
theories/P_Ring.v
theories/P_Ring2.v
theories/P_Ring3.v
theories/P_Ring4.v
theories/P_RingIndex.v
theories/P_RingMath.v
theories/P_Round.v
theories/P_Round2.v
theories/P_Rtree.v
theories/P_Rtree2.v
theories/P_Rtree3.v
theories/P_RtreeDel.v
theories/P_RtreeNN.v
theories/P_RtreeNear.v
theories/P_RtreeTop.v
theories/P_Simplify.v
theories/P_SimplifyR.v
theories/P_Slippy.v
theories/P_SlippyR.v
theories/P_SlippyTop.v
theories/P_Strconv.v
theories/P_Strconv2.v
theories/P_Strconv3.v
theories/P_Strconv4.v
theories/P_Subdivision.v
theories/P_Subdivision2.v
theories/P_Subdivision3.v
theories/P_Subdivision4.v
theories/P_Subdivision5.v
theories/P_Sweep.v
theories/P_Sweep2.v
theories/P_Sweep3.v
theories/P_Triangle.v
theories/P_Validate.v
theories/P_Validate2.v
theories/P_Validate3.v
theories/P_Walker.v
theories/P_Walker10.v
theories/P_Walker2.v
theories/P_Walker3.v
theories/P_Walker4.v
theories/P_Walker5.v
theories/P_Walker6.v
theories/P_Walker7.v
theories/P_Walker8.v
theories/P_Walker9.v
theories/P_Winding.v
theories/P_Winding2.v
theories/P_Wkb.v
theories/P_WkbSound.v
theories/P_WkbWire.v
theories/P_Wkt.v
theories/P_Wkt2.v
theories/P_Wkt3.v
theories/P_Wkt4.v
theories/P_Wkt5.v
theories/P_WktExt.v
theories/P_WktTop.v
theories/S_Classify.v
theories/S_Clip.v
theories/S_Cmp.v
theories/S_Constrained.v
theories/S_Constraint.v
theories/S_Coord.v
theories/S_Delaunay.v
theories/S_Extent.v
theories/S_Face.v
theories/S_Geojson.v
theories/S_Geom.v
theories/S_Gpkg.v
theories/S_Hitmap.v
theories/S_Insert.v
theories/S_InsertRun.v
theories/S_Intersect.v
theories/S_Kd.v
theories/S_Makevalid.v
theories/S_Mvt.v
theories/S_MvtLayer.v
theories/S_MvtPrepare.v
theories/S_Planar.v
theories/S_Pseudo.v
theories/S_Quadedge.v
theories/S_ResolveEdge.v
theories/S_Ring.v
theories/S_Round.v
theories/S_Rtree.v
theories/S_RtreeEx.v
theories/S_Simplify.v
theories/S_Slippy.v
theories/S_Strconv.v
theories/S_Subdivision.v
theories/S_Sweep.v
theories/S_Triangle.v
theories/S_Validate.v
theories/S_Walker.v
theories/S_Winding.v
theories/S_Wkb.v
theories/S_Wkt.v
theories/T_Clip.v
theories/T_Cmp.v
theories/T_Constrained.v
theories/T_Constraint.v
theories/T_Coord.v
theories/T_Delaunay.v
theories/T_Extent.v
theories/T_F64.v
theories/T_Face.v
theories/T_Geojson.v
theories/T_Geom.v
theories/T_Gpkg.v
theories/T_Hitmap.v
theories/T_Insert.v
theories/T_Intersect.v
theories/T_Kd.v
theories/T_Makevalid.v
theories/T_Mvt.v
theories/T_MvtLayer.v
theories/T_MvtPrepare.v
theories/T_Planar.v
theories/T_Pseudo.v
theories/T_Quadedge.v
theories/T_ResolveEdge.v
theories/T_Ring.v
theories/T_Round.v
theories/T_Rtree.v
theories/T_Simplify.v
theories/T_Slippy.v
theories/T_Subdivision.v
theories/T_Sweep.v
theories/T_Triangle.v
theories/T_Validate.v
theories/T_Walker.v
theories/T_Winding.v
theories/T_Wkb.v
theories/T_Wkt.v
