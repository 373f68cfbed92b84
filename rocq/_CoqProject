-Q theories Verif

theories/Maps.v
theories/MapsProofs.v
theories/Vec.v
theories/VecProofs.v
theories/StateModel.v
theories/StateSpec.v
theories/StateProofs.v
theories/StateReal.v
theories/StateRealProofs.v
theories/StateExamples.v
theories/PropertiesState.v
theories/CombModel.v
theories/CombSpec.v
theories/CombProofs.v
theories/CombProofs2.v
theories/CombOrder.v
theories/CombOrder2.v
theories/CombExamples.v
theories/PropertiesComb.v
theories/GenModel.v
theories/GenSpec.v
theories/GenProofs.v
theories/GenProofs2.v
theories/GenProofs3.v
theories/GenProofs4.v
theories/GenProofs5.v
theories/GenProofs6.v
theories/GenProofs7.v
theories/GenProofs8.v
theories/GenProofs9.v
theories/GenProofs10.v
theories/GenProofs11.v
theories/GenProofs12.v
theories/GenProofs13.v
theories/GenExamples.v
theories/PropertiesGen.v
theories/BodyModel.v
theories/BodySpec.v
theories/BodyProofs.v
theories/PropertiesBody.v
theories/SampModel.v
theories/SampSpec.v
theories/SampProofs.v
theories/SampProofs2.v
theories/SampProofs3.v
theories/SampProofs4.v
theories/SampExamples.v
theories/PropertiesSamp.v
theories/ValidModel.v
theories/ValidSpec.v
theories/ValidProofs.v
theories/ValidProofs2.v
theories/ValidProofs3.v
theories/ValidExamples.v
theories/PropertiesValid.v
theories/GeomModel.v
theories/GeomSpec.v
theories/GeomInt.v
theories/GeomProofs.v
theories/GeomProofs2.v
theories/GeomProofs3.v
theories/GeomProofs4.v
theories/GeomProofs5.v
theories/GeomProofs6.v
theories/GeomProofs7.v
theories/GeomProofs8.v
theories/GeomExamples.v
theories/PropertiesGeom.v
theories/ShootModel.v
theories/ShootSpec.v
theories/ShootProofs.v
theories/ShootExamples.v
theories/PropertiesShoot.v
theories/TriModel.v
theories/TriSpec.v
theories/TriProofs.v
theories/TriProofs2.v
theories/TriExamples.v
theories/PropertiesTri.v
theories/HeurModel.v
theories/HeurSpec.v
theories/HeurProofs.v
theories/HeurProofs2.v
theories/HeurProofs3.v
theories/HeurProofs4.v
theories/HeurProofs5.v
theories/HeurProofs6.v
theories/HeurExamples.v
theories/CollModel.v
theories/CollSpec.v
theories/CollProofs.v
theories/PropertiesColl.v
theories/FloatSpec.v
theories/FloatModel.v
theories/FloatProofs.v
theories/FloatProofs2.v
theories/FloatProofs3.v
theories/FloatProofs4.v
theories/FloatProofs5.v
theories/PropertiesFloat.v
theories/PropertiesHeur.v
theories/SupModel.v
theories/SupSpec.v
theories/SupProofs.v
theories/SupProofs2.v
theories/SupProofs3.v
theories/SupProofs4.v
theories/SupProofs5.v
theories/SupProofs6.v
theories/SupExamples.v
theories/PropertiesSup.v
theories/AnalModel.v
theories/AnalSpec.v
theories/AnalProofs.v
theories/AnalProofs2.v
theories/AnalExamples.v
theories/AnalProofs3.v
theories/PropertiesAnal.v
theories/ToolModel.v
theories/ToolSpec.v
theories/ToolProofs.v
theories/ToolProofs2.v
theories/ToolProofs3.v
theories/ToolExamples.v
theories/PropertiesTool.v
theories/ParaModel.v
theories/ParaSpec.v
theories/ParaProofs.v
theories/ParaProofs2.v
theories/ParaProofs3.v
theories/ParaProofs4.v
theories/ParaProofs5.v
theories/ParaExamples.v
theories/PropertiesPara.v
theories/TrajModel.v
theories/TrajSpec.v
theories/TrajProofs.v
theories/TrajProofs2.v
theories/TrajProofs3.v
theories/TrajExamples.v
theories/PropertiesTraj.v
theories/ProjModel.v
theories/ProjSpec.v
theories/ProjProofs.v
theories/ProjProofs2.v
theories/ProjProofs3.v
theories/DevModel.v
theories/DevSpec.v
theories/DevProofs.v
theories/ProjExamples.v
theories/PropertiesProj.v
theories/StabModel.v
theories/StabSpec.v
theories/StabProofs.v
theories/StabProofs2.v
theories/ReachModel.v
theories/ReachSpec.v
theories/ReachProofs.v
theories/ReachProofs2.v
theories/ReachProofs3.v
theories/ReachProofs4.v
theories/ReachProofs5.v
theories/ReachProofs6.v
theories/ReachExamples.v
theories/PropertiesStab.v
theories/PropertiesReach.v
theories/OptModel.v
theories/OptSpec.v
theories/OptProofs.v
theories/OptProofs2.v
theories/OptProofs3.v
theories/OptExamples.v
theories/PropertiesOpt.v
theories/NodeModel.v
theories/NodeSpec.v
theories/NodeProofs.v
theories/NodeProofs2.v
theories/NodeProofs3.v
theories/NodeExamples.v
theories/PropertiesNode.v
theories/PlanModel.v
theories/PlanSpec.v
theories/PlanProofs.v
theories/PlanProofs2.v
theories/PlanProofs3.v
theories/PlanProofs4.v
theories/PlanProofs5.v
theories/PlanExamples.v
theories/PropertiesPlan.v
theories/DpvModel.v
theories/DpvSpec.v
theories/DpvProofs.v
theories/DpvProofs2.v
theories/DpvProofs3.v
theories/DpvExamples.v
theories/PropertiesDpv.v
theories/LimbModel.v
theories/LimbSpec.v
theories/LimbProofs.v
theories/LimbExamples.v
theories/PropertiesLimb.v
theories/SeqModel.v
theories/SeqSpec.v
theories/SeqProofs.v
theories/SeqProofs2.v
theories/SeqProofs3.v
theories/SeqProofs4.v
theories/SeqProofs5.v
theories/SeqProofs6.v
theories/SeqProofs7.v
theories/SeqProofs8.v
theories/SeqProofs9.v
theories/SeqExamples.v
theories/PropertiesSeq.v
theories/InterModel.v
theories/InterSpec.v
theories/InterProofs.v
theories/InterProofs2.v
theories/InterProofs3.v
theories/InterProofs4.v
theories/InterEntry.v
theories/InterExamples.v
theories/PropertiesInter.v
theories/EffModel.v
theories/EffSpec.v
theories/EffProofs.v
theories/EffProofs2.v
theories/EffProofs3.v
theories/EffCurves.v
theories/EffExamples.v
theories/PropertiesEff.v
theories/WatchModel.v
theories/WatchSpec.v
theories/WatchProofs.v
theories/WatchExamples.v
theories/PropertiesWatch.v
theories/SteerModel.v
theories/SteerSpec.v
theories/SteerProofs.v
theories/SteerExamples.v
theories/PropertiesSteer.v
theories/FricModel.v
theories/FricSpec.v
theories/FricProofs.v
theories/FricExamples.v
theories/PropertiesFric.v
theories/PrintModel.v
theories/PrintSpec.v
theories/PrintProofs.v
theories/PrintExamples.v
theories/PropertiesPrint.v
theories/ShotModel.v
theories/ShotSpec.v
theories/ShotProofs.v
theories/ShotExamples.v
theories/PropertiesShot.v
theories/WayModel.v
theories/WaySpec.v
theories/WayProofs.v
theories/WayExamples.v
theories/PropertiesWay.v
theories/HoldSpec.v
theories/HoldProofs.v
theories/HoldRobot.v
theories/HoldProofs2.v
theories/HoldProofs3.v
theories/HoldExamples.v
theories/PropertiesHold.v
theories/RjumpModel.v
theories/RjumpSpec.v
theories/RjumpProofs.v
theories/PropertiesRjump.v
theories/OmpModel.v
theories/OmpProofs.v
theories/PropertiesOmp.v
theories/RefModel.v
theories/RefSpec.v
theories/RefProofs.v
theories/PropertiesRef.v
theories/CentModel.v
theories/CentSpec.v
theories/CentProofs.v
theories/PropertiesCent.v
theories/SurfModel.v
theories/SurfSpec.v
theories/SurfProofs.v
theories/SurfProofs2.v
theories/SurfProofs3.v
theories/SurfExamples.v
theories/PropertiesSurf.v
theories/StepSpec.v
theories/StepProofs.v
theories/StepProofs2.v
theories/StepRobot.v
theories/StepExamples.v
theories/PropertiesStep.v
theories/RootSpec.v
theories/RootProofs.v
theories/RootExamples.v
theories/PropertiesRoot.v
theories/SafeSpec.v
theories/SafeProofs.v
theories/SafeProofs2.v
theories/SafeExamples.v
theories/PropertiesSafe.v
theories/PairsSpec.v
theories/PairsProofs.v
theories/PairsProofs2.v
theories/PairsExamples.v
theories/PropertiesPairs.v
theories/BestModel.v
theories/BestProofs.v
theories/BestExamples.v
theories/PropertiesBest.v
