-Q theories Verif
theories/Model/Base.v
theories/Model/Priority.v
theories/Model/Vec.v
theories/Model/Algebraic.v
theories/Model/Transform.v
theories/Model/Voxel.v
theories/Model/Strain.v
theories/Model/Misc.v
theories/Model/Measure.v
theories/Model/Amorphous.v
theories/Model/Post.v
theories/Model/Generator.v
theories/Model/Volume.v
theories/Model/Molecule.v
theories/Model/AlphaShape.v
theories/Model/Adsorbate.v
theories/Model/Rdf.v
theories/Model/Scene.v
theories/Spec/PrioritySpec.v
theories/Spec/Geometry.v
theories/Spec/SceneSpec.v
theories/Proofs/PriorityFacts.v
theories/Proofs/VecFacts.v
theories/Proofs/VolumeFacts.v
theories/Proofs/SceneFacts.v
theories/Props/SceneProps.v
theories/Proofs/HullFacts.v
theories/Spec/AlgSpec.v
theories/Proofs/AlgFacts.v
theories/Props/AlgebraicProps.v
theories/Props/BoxProps.v
theories/Spec/CrystalSpec.v
theories/Proofs/GenFacts.v
theories/Props/Assumptions1.v
theories/Props/Assumptions2.v
theories/Props/Assumptions3.v
theories/Props/Assumptions4.v
theories/Props/GeneratorProps.v
theories/Proofs/VolTransFacts.v
theories/Props/VolumeProps.v
theories/Model/Snap.v
theories/Props/TransformProps.v
theories/Spec/AmorphSpec.v
theories/Proofs/AmorphFacts.v
theories/Proofs/GridFacts.v
theories/Proofs/BatchFacts.v
theories/Proofs/AmorphLoop.v
theories/Props/AmorphousProps.v
theories/Proofs/SplitFacts.v
theories/Props/MiscProps.v
theories/Props/MoleculeProps.v
theories/Props/PostProps.v
theories/Props/CircumProps.v
theories/Props/SurfaceProps.v
theories/Props/AdsorbateProps.v
theories/Props/RdfProps.v
theories/Model/Prefab.v
theories/Spec/PrefabSpec.v
theories/Proofs/PrefabFacts.v
theories/Props/PrefabProps.v
theories/Props/GrainProps.v
theories/Model/Wulff.v
theories/Spec/WulffSpec.v
theories/Proofs/WulffFacts.v
theories/Props/WulffProps.v
theories/Model/Heap.v
theories/Spec/HeapSpec.v
theories/Proofs/HeapFacts.v
theories/Proofs/HeapRun.v
theories/Props/HeapProps.v
theories/Props/RestProps.v
theories/Props/StateProps.v
theories/Props/WurtziteProps.v
theories/Model/Collect.v
theories/Spec/CollectSpec.v
theories/Props/CollectProps.v
theories/Model/Float.v
theories/Spec/FloatSpec.v
theories/Proofs/FloatFacts.v
theories/Proofs/FloatCyl.v
theories/Props/FloatProps.v
theories/Spec/StrainSpec.v
theories/Props/StrainProps.v
theories/Props/AmorphHistory.v
theories/Props/RegionProps.v
theories/Spec/HistorySpec.v
theories/Model/TransformObj.v
theories/Props/TransformObjProps.v
theories/Props/UnitCellProps.v
theories/Props/FloatSupplyProps.v
theories/Spec/ArraySpec.v
theories/Props/MolArrayProps.v
theories/Model/Sharing.v
theories/Spec/SharingSpec.v
theories/Props/SharingProps.v
theories/Props/AcrossProps.v
theories/Props/WholeProps.v
theories/Props/PartsProps.v
theories/Props/MotionProps.v
theories/Model/Views.v
theories/Spec/ViewSpec.v
theories/Props/ViewProps.v
theories/Model/PrefabObj.v
theories/Spec/PrefabObjSpec.v
theories/Model/Angle.v
theories/Props/PrefabObjProps.v
theories/Props/AngleProps.v
theories/Model/AlgShape.v
theories/Spec/AlgShapeSpec.v
theories/Props/AlgShapeProps.v
theories/Model/AlgNan.v
theories/Spec/AlgNanSpec.v
theories/Props/AlgNanProps.v
theories/Model/MolShare.v
theories/Spec/MolShareSpec.v
theories/Props/MolShareProps.v
theories/Model/GenObj.v
theories/Spec/GenObjSpec.v
theories/Props/GenObjProps.v
theories/Model/Settings.v
theories/Spec/SettingsSpec.v
theories/Props/SettingsProps.v
theories/Model/StrainObj.v
theories/Spec/StrainObjSpec.v
theories/Props/StrainObjProps.v
theories/Model/VolumeObj.v
theories/Spec/VolumeObjSpec.v
theories/Props/VolumeObjProps.v
theories/Model/FloatScene.v
theories/Spec/FloatSceneSpec.v
theories/Props/FloatSceneProps.v
theories/Model/WulffObj.v
theories/Spec/WulffObjSpec.v
theories/Props/WulffObjProps.v
theories/Props/NormalProps.v
theories/Spec/MolOriginSpec.v
theories/Props/MolOriginProps.v
theories/Props/MolSceneProps.v
theories/Model/SceneRun.v
theories/Props/SceneRunProps.v
theories/Spec/AbortSpec.v
theories/Props/TransAbortProps.v
theories/Model/FloatRot.v
theories/Spec/FloatRotSpec.v
theories/Proofs/FloatRotFacts.v
theories/Proofs/FloatRotErr.v
theories/Proofs/FloatRotCase.v
theories/Props/FloatRotProps.v
theories/Model/FloatAngle.v
theories/Props/FloatAngleProps.v
theories/Model/FloatAmorph.v
theories/Spec/FloatAmorphSpec.v
theories/Proofs/FloatAmorphFacts.v
theories/Props/FloatAmorphProps.v
theories/Props/PrefabMore.v
theories/Model/FloatBatch.v
theories/Proofs/FloatBatchFacts.v
theories/Props/FloatBatchProps.v
theories/Props/GroupProps.v
theories/Model/MatNan.v
theories/Spec/MatNanSpec.v
theories/Props/MatNanProps.v
theories/Spec/RenumberSpec.v
theories/Props/RenumberProps.v
theories/Spec/StopSpec.v
theories/Props/StopProps.v
theories/Spec/RankSpec.v
theories/Props/RankProps.v
theories/Spec/UndoSpec.v
theories/Props/UndoProps.v
theories/Props/CloudProps.v
theories/Spec/ComplexSpec.v
theories/Props/ComplexProps.v
theories/Model/FloatMove.v
theories/Spec/DriftSpec.v
theories/Proofs/DriftFacts.v
theories/Props/DriftProps.v
theories/Proofs/DriftSurfFacts.v
theories/Props/DriftSurfProps.v
theories/Props/DriftFillProps.v
