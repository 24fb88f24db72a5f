-Q theories Verif
theories/Base.v
theories/RasterSpec.v
theories/RasterFacts.v
theories/PFModel.v
theories/PFSpec.v
theories/PFInv.v
theories/PFProofs.v
theories/PFProofs2.v
theories/PFProofs3.v
theories/PFProofs4.v
theories/PFProofs5.v
theories/PropertiesPF.v
theories/UFModel.v
theories/UFSpec.v
theories/UFProofs.v
theories/LRUModel.v
theories/LRUSpec.v
theories/LRUProofs.v
theories/MVModel.v
theories/MVProofs.v
theories/CmpModel.v
theories/CmpSpec.v
theories/CmpProofs.v
theories/PropertiesDS.v
theories/Res.v
theories/ArrModel.v
theories/ArrSpec.v
theories/ArrProofs.v
theories/ArrProofs2.v
theories/ArrProofs3.v
theories/CacheModel.v
theories/CacheSpec.v
theories/CacheProofs.v
theories/PropertiesArr.v
theories/Kahn.v
theories/FlowModel.v
theories/FlowSpec.v
theories/FlowProofs.v
theories/PropertiesFlow.v
theories/FAModel.v
theories/FASpec.v
theories/FAProofs.v
theories/FMModel.v
theories/FMSpec.v
theories/FMProofs.v
theories/FMProofs2.v
theories/FMProofs3.v
theories/FMProofs4.v
theories/PropertiesFM.v
theories/BFS.v
theories/FlatsModel.v
theories/FlatsSpec.v
theories/FlatsProofs.v
theories/FlatsProofs2.v
theories/FlatsProofs3.v
theories/PropertiesFlats.v
theories/DHModel.v
theories/DHSpec.v
theories/DHFlood.v
theories/DHTree.v
theories/DHTerrain.v
theories/DHVol.v
theories/DHAll.v
theories/DHLifo.v
theories/DHPlain.v
theories/PropertiesDH.v
theories/QcTac.v
theories/FSMModel.v
theories/FSMSpec.v
theories/FSMPits.v
theories/FSMPits2.v
theories/PropertiesPits.v
theories/FSMRoute.v
theories/FSMRoute2.v
theories/FSMRoute3.v
theories/PropertiesRoute.v
theories/FSMFill.v
theories/FSMFill2.v
theories/FSMFill3.v
theories/FSMBasin.v
theories/PropertiesFill.v
theories/FSMFind.v
theories/PropertiesFSM.v
theories/RadixModel.v
theories/RadixSpec.v
theories/RadixProofs.v
theories/PropertiesQueue.v
theories/TraceFlood.v
theories/ZhouModel.v
theories/ZhouProofs.v
theories/WeiModel.v
theories/WeiProofs.v
theories/PropertiesTrace.v
theories/BreachModel.v
theories/BreachSpec.v
theories/BreachProofs.v
theories/BreachLoop.v
theories/BreachComplete.v
theories/BreachTop.v
theories/BreachModes.v
theories/PropertiesBreach.v
theories/PPFModel.v
theories/PPFSpec.v
theories/PPFTile.v
theories/PPFTile2.v
theories/PPFGraph.v
theories/PPFMaster.v
theories/PPFTop.v
theories/PropertiesPPF.v
theories/PAModel.v
theories/PAKahn.v
theories/PATile.v
theories/PAPath.v
theories/PASpec.v
theories/PAGeo.v
theories/PAMaster.v
theories/PATop.v
theories/PropertiesPA.v
theories/MiscModel.v
theories/MiscSpec.v
theories/MiscProofs.v
theories/AreaModel.v
theories/AreaSpec.v
theories/AreaProofs.v
theories/PropertiesMisc.v
theories/PropertiesArea.v
theories/TAModel.v
theories/TASpec.v
theories/TAProofs.v
theories/PropertiesTA.v
theories/A2Model.v
theories/A2Spec.v
theories/A2Proofs.v
theories/A2Proofs2.v
theories/A2Proofs3.v
theories/A2Proofs4.v
theories/A2Proofs5.v
theories/A2Proofs6.v
theories/PropertiesA2.v
theories/LayoutModel.v
theories/LayoutSpec.v
theories/LayoutProofs.v
theories/LayoutProofs2.v
theories/PropertiesLayout.v
theories/DinfModel.v
theories/DinfSpec.v
theories/DinfProofs.v
theories/DinfProofs2.v
theories/DinfProofs3.v
theories/DinfArea.v
theories/DinfArea2.v
theories/PropertiesDinf.v
theories/DinfFlatsModel.v
theories/DinfFlatsSpec.v
theories/DinfFlatsProofs.v
theories/PropertiesDinfFlats.v
theories/Arr3Model.v
theories/Arr3Spec.v
theories/Arr3Proofs.v
theories/PropertiesArr3.v
theories/AppsModel.v
theories/AppsSpec.v
theories/AppsProofs.v
theories/PropertiesApps.v
theories/FAFModel.v
theories/FAFSpec.v
theories/FAFProofs.v
theories/FAFNum.v
theories/FAFMain.v
theories/FAFBounds.v
theories/PropertiesFAF.v
theories/PyModel.v
theories/PySpec.v
theories/PyProofs.v
theories/PyProofs2.v
theories/PyIntModel.v
theories/PyProofs3.v
theories/PyProofs4.v
theories/PyProofs5.v
theories/PyFlowModel.v
theories/PropertiesPy.v
theories/PropertiesPy2.v
theories/PropertiesPy3.v
theories/PyNumModel.v
theories/PropertiesPyNum.v
theories/PropertiesPy4.v
theories/EpsIntModel.v
theories/EpsIntProofs.v
theories/PropertiesEpsInt.v
theories/PyDHModel.v
theories/PyDHProofs.v
theories/PropertiesPyDH.v
theories/GDALModel.v
theories/GDALProofs.v
theories/PropertiesGDAL.v
theories/PyGDALModel.v
theories/PropertiesPyGDAL.v
theories/PerlinModel.v
theories/PropertiesPerlin.v
theories/PyLayoutModel.v
theories/PyLayoutProofs.v
theories/PropertiesPyLayout.v
theories/PropertiesPyLayout2.v
theories/AppsGDALModel.v
theories/PropertiesAppsGDAL.v
theories/AppsShowModel.v
theories/PropertiesAppsShow.v
theories/AppsDepModel.v
theories/AppsDepProofs.v
theories/PropertiesAppsDep.v
theories/AppsFAModel.v
theories/PropertiesAppsFA.v
theories/AppsBreachModel.v
theories/PropertiesAppsBreach.v
