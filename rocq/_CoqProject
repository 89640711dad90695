-Q theories Verif

theories/Model/Agent.v
theories/Model/AgentObject.v
theories/Model/Aspect.v
theories/Model/Base.v
theories/Model/BlockList.v
theories/Model/Body.v
theories/Model/Built.v
theories/Model/Collective.v
theories/Model/CommandLine.v
theories/Model/Config.v
theories/Model/CsvText.v
theories/Model/Distance.v
theories/Model/Docs.v
theories/Model/Evacuation.v
theories/Model/ExampleFields.v
theories/Model/ExampleSims.v
theories/Model/Extras.v
theories/Model/Field.v
theories/Model/FloatBodies.v
theories/Model/FloatClock.v
theories/Model/FloatExits.v
theories/Model/FloatForces.v
theories/Model/FloatGeom.v
theories/Model/FloatPlacement.v
theories/Model/FloatSampling.v
theories/Model/FloatSteps.v
theories/Model/FloatWalk.v
theories/Model/FloatWalls.v
theories/Model/Floats.v
theories/Model/Geom2D.v
theories/Model/Geometry.v
theories/Model/Integrator.v
theories/Model/Interactions.v
theories/Model/LogicExpr.v
theories/Model/LogicTree.v
theories/Model/Maps.v
theories/Model/Motion.v
theories/Model/Offered.v
theories/Model/Placement.v
theories/Model/Plot.v
theories/Model/PowerLaw.v
theories/Model/Quantities.v
theories/Model/Rand.v
theories/Model/Recorded.v
theories/Model/Sampling.v
theories/Model/SavePaths.v
theories/Model/Saving.v
theories/Model/Simulation.v
theories/Model/Steering.v
theories/Model/Storage.v
theories/Model/Strategies.v
theories/Model/TargetCount.v
theories/Model/TraitTypes.v
theories/Model/Validation.v
theories/Model/Vector2D.v
theories/Model/Version.v
theories/Model/Voronoi.v
theories/Model/WorkDir.v
theories/Proofs/AgentObjectProofs.v
theories/Proofs/BlockListProofs.v
theories/Proofs/BodyProofs.v
theories/Proofs/BuiltProofs.v
theories/Proofs/CollectiveProofs.v
theories/Proofs/ConfigProofs.v
theories/Proofs/CrowdApart.v
theories/Proofs/CrowdExamples.v
theories/Proofs/CrowdProofs.v
theories/Proofs/CsvProofs.v
theories/Proofs/DensityProofs.v
theories/Proofs/DistanceProofs.v
theories/Proofs/DocProofs.v
theories/Proofs/EvacuationProofs.v
theories/Proofs/ExtraProofs.v
theories/Proofs/FieldProofs.v
theories/Proofs/FloatCases.v
theories/Proofs/FloatCells.v
theories/Proofs/FloatClockProofs.v
theories/Proofs/FloatContact.v
theories/Proofs/FloatDistance.v
theories/Proofs/FloatForcesProofs.v
theories/Proofs/FloatForcesSums.v
theories/Proofs/FloatGeomProofs.v
theories/Proofs/FloatMoves.v
theories/Proofs/FloatOverlap.v
theories/Proofs/FloatPi.v
theories/Proofs/FloatProofs.v
theories/Proofs/FloatSamplingProofs.v
theories/Proofs/FloatSums.v
theories/Proofs/FloatWalkProofs.v
theories/Proofs/FloatWallsProofs.v
theories/Proofs/FrameImages.v
theories/Proofs/FrameNodes.v
theories/Proofs/FrameProofs.v
theories/Proofs/FrameRows.v
theories/Proofs/FrameRuns.v
theories/Proofs/Geom2DProofs.v
theories/Proofs/GeometryProofs.v
theories/Proofs/GoesOnProofs.v
theories/Proofs/GuidanceProofs.v
theories/Proofs/HeldProofs.v
theories/Proofs/HeldStep.v
theories/Proofs/IndexProofs.v
theories/Proofs/IntegratorProofs.v
theories/Proofs/InteractionProofs.v
theories/Proofs/LedProofs.v
theories/Proofs/ListLemmas.v
theories/Proofs/LoneProofs.v
theories/Proofs/MassProofs.v
theories/Proofs/MotionProofs.v
theories/Proofs/MovingProofs.v
theories/Proofs/NeighborProofs.v
theories/Proofs/OfferedProofs.v
theories/Proofs/OverlapProofs.v
theories/Proofs/PaceProofs.v
theories/Proofs/PartProofs.v
theories/Proofs/PartRuns.v
theories/Proofs/PlaceProofs.v
theories/Proofs/PlacementProofs.v
theories/Proofs/PlotProofs.v
theories/Proofs/PowerLaw3Proofs.v
theories/Proofs/PowerLawProofs.v
theories/Proofs/RandProofs.v
theories/Proofs/RecordedProofs.v
theories/Proofs/ResumeProofs.v
theories/Proofs/RoomFields.v
theories/Proofs/RoomHistories.v
theories/Proofs/RoomProofs.v
theories/Proofs/RunProofs.v
theories/Proofs/SamplingProofs.v
theories/Proofs/SavingProofs.v
theories/Proofs/ScatterProofs.v
theories/Proofs/SimulationMore.v
theories/Proofs/SimulationProofs.v
theories/Proofs/SpeedProofs.v
theories/Proofs/SpeedRuns.v
theories/Proofs/SteeringProofs.v
theories/Proofs/StorageProofs.v
theories/Proofs/StraightProofs.v
theories/Proofs/StrategyProofs.v
theories/Proofs/SymmetryProofs.v
theories/Proofs/ToolProofs.v
theories/Proofs/TraitProofs.v
theories/Proofs/TreeOrderProofs.v
theories/Proofs/TreeProofs.v
theories/Proofs/TurnProofs.v
theories/Proofs/VecLemmas.v
theories/Proofs/Vector2DProofs.v
theories/Proofs/VersionProofs.v
theories/Proofs/VoronoiCase.v
theories/Proofs/VoronoiProofs.v
theories/Proofs/WalkProofs.v
theories/Proofs/WallProofs.v
theories/Proofs/WholeProofs.v
theories/Proofs/Witness1.v
theories/Proofs/Witness11.v
theories/Proofs/Witness2.v
theories/Proofs/Witness6.v
theories/Proofs/Witness8.v
theories/Proofs/WrittenProofs.v
theories/Props/P01_Plane.v
theories/Props/P02_BlockList.v
theories/Props/P03_Placement.v
theories/Props/P04_Body.v
theories/Props/P05_Motion.v
theories/Props/P06_Interactions.v
theories/Props/P07_Integrator.v
theories/Props/P08_Following.v
theories/Props/P09_LogicTree.v
theories/Props/P10_Steering.v
theories/Props/P11_Simulation.v
theories/Props/P12_Random.v
theories/Props/P13_Geometry.v
theories/Props/P14_Storage.v
theories/Props/P15_Field.v
theories/Props/P16_Tools.v
theories/Props/P17_Rooms.v
theories/Props/P18_Crowds.v
theories/Props/P19_Guidance.v
theories/Props/P20_Validation.v
theories/Props/P21_Voronoi.v
theories/Props/P22_Plots.v
theories/Props/P23_Config.v
theories/Props/P24_Frames.v
theories/Props/P25_Parts.v
theories/Props/P26_Floats.v
theories/Props/P27_Extras.v
theories/Props/P28_GoesOn.v
theories/Props/P29_Places.v
theories/Props/P30_Versions.v
theories/Props/P31_Offered.v
theories/Props/P32_Docs.v
theories/Props/P33_Strategies.v
theories/Props/P34_FloatSteps.v
theories/Props/P35_Limits.v
theories/Props/P36_Indices.v
theories/Props/P37_Held.v
theories/Props/P38_Resume.v
theories/Props/P39_Pace.v
theories/Props/P40_Whole.v
theories/Props/P41_Led.v
theories/Props/P42_Built.v
theories/Props/P43_Recorded.v
theories/Props/P44_FloatGeom.v
theories/Props/P45_Symmetry.v
theories/Props/P46_FloatForces.v
theories/Props/P47_FloatWalk.v
theories/Props/P48_Masses.v
theories/Props/P49_FloatWalls.v
theories/Props/P50_Moving.v
theories/Props/P51_FloatClock.v
theories/Props/P52_FloatSampling.v
theories/Props/P53_FloatDistance.v
theories/Props/P54_FloatBodies.v
theories/Props/P55_FloatPlacement.v
theories/Props/P56_FloatExits.v
theories/Spec/Approach.v
theories/Spec/Bodies.v
theories/Spec/Built.v
theories/Spec/Cells.v
theories/Spec/Chance.v
theories/Spec/Collide.v
theories/Spec/Configs.v
theories/Spec/Crowds.v
theories/Spec/Densities.v
theories/Spec/DocTables.v
theories/Spec/Doubles.v
theories/Spec/Drawn.v
theories/Spec/Fields.v
theories/Spec/FloatClock.v
theories/Spec/FloatPush.v
theories/Spec/FloatWalls.v
theories/Spec/Follow.v
theories/Spec/Frames.v
theories/Spec/GoesOn.v
theories/Spec/GridPoints.v
theories/Spec/Grids.v
theories/Spec/Guidance.v
theories/Spec/Held.v
theories/Spec/Indices.v
theories/Spec/Led.v
theories/Spec/Limits.v
theories/Spec/Loads.v
theories/Spec/Masses.v
theories/Spec/Moving.v
theories/Spec/Offers.v
theories/Spec/Overlap.v
theories/Spec/Pace.v
theories/Spec/Pairs.v
theories/Spec/Parts.v
theories/Spec/Placed.v
theories/Spec/Places.v
theories/Spec/Plane.v
theories/Spec/Plots.v
theories/Spec/Polygon.v
theories/Spec/Recorded.v
theories/Spec/Records.v
theories/Spec/Regions.v
theories/Spec/Resume.v
theories/Spec/Rooms.v
theories/Spec/Runs.v
theories/Spec/Shapes.v
theories/Spec/Sight.v
theories/Spec/Steps.v
theories/Spec/Straight.v
theories/Spec/Symmetry.v
theories/Spec/Tools.v
theories/Spec/Touches.v
theories/Spec/Traits.v
theories/Spec/Trees.v
theories/Spec/Versions.v
theories/Spec/Voronoi.v
theories/Spec/Whole.v
theories/Spec/Written.v
