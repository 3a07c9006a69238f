-Q theories Verif
theories/Num/FOps.v
theories/Num/RFun.v
theories/Num/XR.v
theories/Num/XRLemmas.v
theories/Num/F64.v
theories/Num/F64Lemmas.v
theories/Num/PIBounds.v
theories/Num/TMod.v
theories/Num/TModL.v
theories/Num/TModC.v
theories/Num/TModV.v
theories/Num/Near.v
theories/Model/Fp.v
theories/Model/Quantities.v
theories/Model/Complex.v
theories/Model/Cs.v
theories/Model/Ellipsoid.v
theories/Model/Geodesics.v
theories/Model/Projections.v
theories/Model/Crs.v
theories/Model/Geometry.v
theories/Spec/Angles.v
theories/Spec/Runs.v
theories/Spec/Series.v
theories/Spec/Iteration.v
theories/Spec/Axes.v
theories/Spec/Shape.v
theories/Spec/Lines.v
theories/Spec/NoNan.v
theories/Spec/Frames.v
theories/Spec/Totality.v
theories/Spec/Maps.v
theories/Spec/Krueger.v
theories/Spec/Libm.v
theories/Spec/Sphere.v
theories/Spec/Settle.v
theories/Spec/Routes.v
theories/Spec/Published.v
theories/Spec/Geodesic.v
theories/Spec/Conformal.v
theories/Spec/Reach.v
theories/Spec/Accurate.v
theories/Spec/Binary64.v
theories/Spec/Routes64.v
theories/Spec/Sexagesimal.v
theories/Spec/Maps64.v
theories/Spec/Transverse64.v
theories/Spec/MapRoutes64.v
theories/Spec/Rapp.v
theories/Spec/GridRoutes64.v
theories/Spec/Return64.v
theories/Spec/Lines64.v
theories/Spec/Sums64.v
theories/Spec/Space64.v
theories/Spec/Complex64.v
theories/Spec/Ellipsoid64.v
theories/Spec/Angles64.v
theories/Proofs/AnglesX.v
theories/Proofs/AnglesX2.v
theories/Proofs/AnglesF.v
theories/Proofs/AnglesEx.v
theories/Proofs/MathX.v
theories/Proofs/MathF.v
theories/Proofs/MathEx.v
theories/Proofs/AxesX.v
theories/Proofs/AxesEx.v
theories/Proofs/EllX.v
theories/Proofs/DatumX.v
theories/Proofs/EllF.v
theories/Proofs/EllEx.v
theories/Proofs/LinesG.v
theories/Proofs/LinesX.v
theories/Proofs/EqS2.v
theories/Proofs/LinesEx.v
theories/Proofs/TransX.v
theories/Proofs/TransG.v
theories/Proofs/ProjX.v
theories/Proofs/TransEx.v
theories/Proofs/MercX.v
theories/Proofs/TMX.v
theories/Proofs/TMInv.v
theories/Proofs/TMF.v
theories/Proofs/UTMX.v
theories/Proofs/MapsEx.v
theories/Proofs/SphereG.v
theories/Proofs/SphereN.v
theories/Proofs/GeoG.v
theories/Proofs/GeoV.v
theories/Proofs/GeoVD.v
theories/Proofs/GeoR.v
theories/Proofs/GeoRD.v
theories/Proofs/GeoK.v
theories/Proofs/GeoKD.v
theories/Proofs/GeoI.v
theories/Proofs/GeoIS.v
theories/Proofs/GeoEM.v
theories/Proofs/GeoRI.v
theories/Proofs/GeoF.v
theories/Proofs/GeoEx.v
theories/Proofs/GeoP.v
theories/Proofs/PubX.v
theories/Proofs/Bessel.v
theories/Proofs/BesselP.v
theories/Proofs/GeoAcc.v
theories/Proofs/GeoUniq.v
theories/Proofs/VincAcc.v
theories/Proofs/VincDir.v
theories/Proofs/VincInv.v
theories/Proofs/VincInvA.v
theories/Proofs/AccP.v
theories/Proofs/Wgs84.v
theories/Proofs/MercInv.v
theories/Proofs/KarnSer.v
theories/Proofs/KarnAcc.v
theories/Proofs/TMConf.v
theories/Proofs/TMScale.v
theories/Proofs/TMArc.v
theories/Proofs/ConfP.v
theories/Proofs/CSin.v
theories/Proofs/TMRound.v
theories/Proofs/TMBack.v
theories/Proofs/TMTrip.v
theories/Proofs/TripP.v
theories/Proofs/NearX.v
theories/Proofs/LlhF.v
theories/Proofs/NearL.v
theories/Proofs/LlhInvF.v
theories/Proofs/LlhInvG.v
theories/Proofs/LlhInvH.v
theories/Proofs/LibmOk.v
theories/Proofs/Bin64P.v
theories/Proofs/TransB.v
theories/Proofs/Ctor.v
theories/Proofs/CtorF.v
theories/Proofs/CtorEx.v
theories/Proofs/NearT.v
theories/Proofs/MapF.v
theories/Proofs/MercF.v
theories/Proofs/MercG.v
theories/Proofs/MercP.v
theories/Proofs/NearH.v
theories/Proofs/TMNear.v
theories/Proofs/TMFwd.v
theories/Proofs/TMFwdM.v
theories/Proofs/TMFwdP.v
theories/Proofs/TMBackE.v
theories/Proofs/TMLoopF.v
theories/Proofs/TMBackF.v
theories/Proofs/TMBackG.v
theories/Proofs/TMBackP.v
theories/Proofs/RappAcc.v
theories/Proofs/RappDir.v
theories/Proofs/RappP.v
theories/Proofs/RappInv.v
theories/Proofs/RappInvA.v
theories/Proofs/RappIP.v
theories/Proofs/MapRoute.v
theories/Proofs/MapRouteA.v
theories/Proofs/MapRouteB.v
theories/Proofs/MapRouteC.v
theories/Proofs/MapRouteD.v
theories/Proofs/ReturnA.v
theories/Proofs/ReturnB.v
theories/Proofs/ReturnC.v
theories/Proofs/Lines64A.v
theories/Proofs/Lines64B.v
theories/Proofs/Lines64C.v
theories/Proofs/Lines64D.v
theories/Proofs/Poly64.v
theories/Proofs/Clen64.v
theories/Proofs/Sums64Ex.v
theories/Proofs/Space64P.v
theories/Proofs/Space64Ex.v
theories/Proofs/ReturnD.v
theories/Proofs/Complex64P.v
theories/Proofs/Complex64Q.v
theories/Proofs/Complex64Ex.v
theories/Proofs/Ell64.v
theories/Proofs/Ell64B.v
theories/Proofs/Ell64Ex.v
theories/Proofs/Angles64P.v
theories/Proofs/Angles64Ex.v
theories/Proofs/Dms64.v
theories/Props/Angles.v
theories/Props/Math.v
theories/Props/Axes.v
theories/Props/Ellipsoid.v
theories/Props/Datum.v
theories/Props/Geometry.v
theories/Props/Equality.v
theories/Props/Transformations.v
theories/Props/Projections.v
theories/Props/Geodesics.v
theories/Props/Accuracy.v
theories/Props/Conformal.v
theories/Props/RoundTrip.v
theories/Props/Binary64.v
theories/Props/Routes64.v
theories/Props/Constructors.v
theories/Props/Maps64.v
theories/Props/Transverse64.v
theories/Props/TransverseBack64.v
theories/Props/Rapp.v
theories/Props/MapRoutes64.v
theories/Props/GridRoutes64.v
theories/Props/Return64.v
theories/Props/Lines64.v
theories/Props/Sums64.v
theories/Props/Space64.v
theories/Props/Complex64.v
theories/Props/Ellipsoid64.v
theories/Props/Angles64.v
theories/Props/Dms64.v
