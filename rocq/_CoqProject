-Q theories Verif
theories/Base.v
theories/BaseP.v
theories/Spec.v
theories/MHealpixIndex.v
theories/MHealpixCoord.v
theories/MHealpixBoundary.v
theories/MRandomsHealpix.v
theories/PHealpixIndex.v
theories/PHealpixArray.v
theories/PHealpixCentre.v
theories/PHealpixTiling.v
theories/PHealpixCoord.v
theories/PHealpixNeigh.v
theories/PHealpixBoundary.v
theories/PRandomsHealpix.v
theories/THealpix.v
theories/SpecSphere.v
theories/SpecGrid.v
theories/MCoords.v
theories/MUsphere.v
theories/MPolarCoords.v
theories/PTrig.v
theories/PCoords.v
theories/PUsphere.v
theories/PUsphereArr.v
theories/PPolarCoords.v
theories/PCoordsX.v
theories/TCoords.v
theories/MGrids.v
theories/PGrids.v
theories/PRadial.v
theories/TGrids.v
theories/SpecUtils.v
theories/MUtils.v
theories/PUtils.v
theories/TUtils.v
theories/MOneD.v
theories/POneD.v
theories/POneD2.v
theories/POneD3.v
theories/TOneD.v
theories/SpecRemap.v
theories/MRemap.v
theories/PRemap.v
theories/PRemap2.v
theories/PRemap3.v
theories/TRemap.v
theories/SpecRandoms.v
theories/MRandoms.v
theories/PRandoms.v
theories/TRandoms.v
theories/SpecShapes.v
theories/MShapes.v
theories/PShapes.v
theories/TShapes.v
theories/SpecDense.v
theories/MDense.v
theories/PDense.v
theories/TDense.v
theories/TDense2.v
theories/TDense3.v
theories/SpecView.v
theories/MView.v
theories/PView.v
theories/TView.v
theories/SpecOrtho.v
theories/MOrtho.v
theories/POrtho.v
theories/TOrtho.v
theories/MHealpixFloat.v
theories/PHealpixFloat.v
theories/THealpixFloat.v
theories/SpecCube.v
theories/MCube.v
theories/PCube.v
theories/TCube.v
theories/SpecMonte.v
theories/MMonte.v
theories/PMonte.v
theories/TMonte.v
theories/SpecMonteRadial.v
theories/MMonteRadial.v
theories/PMonteRadial.v
theories/TMonteRadial.v
theories/SpecMonteShell.v
theories/MMonteShell.v
theories/PMonteShell.v
theories/TMonteShell.v
theories/MHeal.v
theories/PHeal.v
theories/THeal.v
theories/SpecNeighbours.v
theories/PNeighbours.v
theories/PNeighbours2.v
theories/PNeighbours3.v
theories/PSky.v
theories/PNeighbours4.v
theories/TNeighbours.v
theories/SpecHealSetup.v
theories/PHealSetup.v
theories/THealSetup.v
theories/TCoords2.v
theories/SpecRebin.v
theories/PSigma.v
theories/PSigma2.v
theories/TSigma.v
theories/TWeights.v
theories/SpecPlots.v
theories/MPlots.v
theories/TPlots.v
theories/MLife.v
theories/TLife.v
theories/MLifeMonte.v
theories/TLifeMonte.v
theories/TRotate.v
theories/MLifeCube.v
theories/TLifeCube.v
theories/MLifeShell.v
theories/TLifeShell.v
theories/TArgs.v
theories/MLifeOrtho.v
theories/TLifeOrtho.v
theories/TArgs2.v
theories/TArgs3.v
theories/SpecDouble.v
theories/MDouble.v
theories/PDouble.v
theories/TDouble.v
theories/TDouble2.v
theories/MLifeView.v
theories/TLifeView.v
theories/MLifeHeal.v
theories/TLifeHeal.v
theories/TNeighbours1.v
theories/MGridsDouble.v
theories/PGridsDouble.v
theories/TGridsDouble.v
theories/PPiDouble.v
theories/TDoublePi.v
theories/MIndexFloat.v
theories/TIndexFloat.v
theories/MShellDouble.v
theories/TShellDouble.v
theories/TSetups.v
theories/MSumDouble.v
theories/PSumDouble.v
theories/MDenseDouble.v
theories/PDenseDouble.v
theories/TDenseDouble.v
theories/TLifeErrors.v
theories/TLifeErrors2.v
theories/TLifeErrors3.v
theories/TLifeErrors4.v
theories/TLifeErrors5.v
theories/TDouble3.v
theories/MRemapDouble.v
theories/SpecRemapDouble.v
theories/PRemapDouble.v
theories/PRemapDouble2.v
theories/PRemapDouble3.v
theories/PRemapDouble4.v
theories/PRemapDouble5.v
theories/TRemapDouble.v
theories/MRemapDouble2.v
theories/SpecRemapDouble2.v
theories/PRemapDouble6.v
theories/PRemapDouble7.v
theories/PRemapDouble8.v
theories/PRemapDouble9.v
theories/TRemapDouble2.v
theories/TRemapDouble3.v
theories/MOneDDouble.v
theories/SpecRebinDouble.v
theories/PRebinDouble.v
theories/PRebinDouble2.v
theories/PRebinDouble3.v
theories/PRebinDouble4.v
theories/TRebinDouble.v
theories/SpecSigmaDouble.v
theories/PSigmaDouble.v
theories/PSigmaDouble2.v
theories/PSigmaDouble3.v
theories/PSigmaDouble4.v
theories/TSigmaDouble.v
theories/MRadialDouble.v
theories/SpecRadialDouble.v
theories/PRadialDouble.v
theories/PRadialDouble2.v
theories/PRadialDouble3.v
theories/PRadialDouble4.v
theories/TRadialDouble.v
theories/SpecRandomsDouble.v
theories/MRandomsDouble.v
theories/PRandomsDouble.v
theories/TWeightsDouble.v
theories/PRandomsDouble2.v
theories/PRandomsDouble3.v
theories/PRandomsDouble4.v
theories/TRandomsDouble.v
theories/SpecCoordsDouble.v
theories/MCoordsDouble.v
theories/PLibmDouble.v
theories/TAreaDouble.v
theories/PTripDouble.v
theories/TTripDouble.v
theories/TCdfDouble.v
theories/MPolarDouble.v
theories/PPolarDouble.v
theories/TPolarDouble.v
theories/MHealCoordDouble.v
theories/PHealCoordDouble.v
theories/PHealCoordDouble2.v
theories/PHealCoordDouble3.v
theories/PHealCoordDouble4.v
theories/THealCoordDouble.v
theories/SpecHealRandomsDouble.v
theories/MHealRandomsDouble.v
theories/PHealRandomsDouble.v
theories/PHealRandomsDouble2.v
theories/PHealRandomsDouble3.v
theories/PHealRandomsDouble4.v
theories/PHealRandomsDouble5.v
theories/PHealRandomsDouble6.v
theories/THealRandomsDouble.v
theories/MHealBoundaryDouble.v
theories/PHealBoundaryDouble.v
theories/PHealBoundaryDouble2.v
theories/THealBoundaryDouble.v
theories/MShapesDouble.v
theories/SpecShapesDouble.v
theories/PShapesDouble.v
theories/PShapesDouble2.v
theories/TShapesDouble.v
theories/MBoxDouble.v
theories/SpecBoxDouble.v
theories/PBoxDouble.v
theories/TBoxDouble.v
theories/MPolarEADouble.v
theories/PPolarEADouble.v
theories/TPolarEADouble.v
theories/MRotateDouble.v
theories/SpecRotateDouble.v
theories/PRotateDouble.v
theories/PRotateDouble2.v
theories/PRotateDouble3.v
theories/TRotateDouble.v
theories/TRotateDouble2.v
theories/MSpinDouble.v
theories/TSpinDouble.v
theories/MEdgesDouble.v
theories/TEdgesDouble.v
