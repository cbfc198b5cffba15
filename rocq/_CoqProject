-Q theories Verif
theories/Model/Num.v
theories/Model/NumX.v
theories/Model/NumB.v
theories/Model/Vector.v
theories/Model/Common.v
theories/Model/BBox.v
theories/Model/Film.v
theories/Model/HaltonTable.v
theories/Model/Sampler.v
theories/Model/Render.v
theories/Model/Matrix.v
theories/Model/Interaction.v
theories/Model/Transform.v
theories/Model/Camera.v
theories/Model/Shape.v
theories/Model/Sphere.v
theories/Model/Triangle.v
theories/Model/Container.v
theories/Model/KdTree.v
theories/Model/Sampling.v
theories/Model/Reflection.v
theories/Model/Fresnel.v
theories/Model/Microfacet.v
theories/Model/BxDFs.v
theories/Model/Texture.v
theories/Model/Material.v
theories/Model/Light.v
theories/Model/Scene.v
theories/Model/Path.v
theories/Model/Asserted.v
theories/Spec/ShadeSpec.v
theories/Spec/Grid.v
theories/Spec/FilmSpec.v
theories/Spec/HaltonSpec.v
theories/Spec/SamplerSpec.v
theories/Proofs/Iter.v
theories/Proofs/Tiles.v
theories/Proofs/XBase.v
theories/Spec/RVec.v
theories/Proofs/RVecProofs.v
theories/Spec/MatSpec.v
theories/Proofs/MatProofs.v
theories/Spec/TransformSpec.v
theories/Proofs/TransformProofs.v
theories/Proofs/TransformApply.v
theories/Spec/BoxSpec.v
theories/Proofs/BoxProofs.v
theories/Spec/ShapeSpec.v
theories/Proofs/ShapeProofs.v
theories/Proofs/TriangleProofs.v
theories/Spec/KdSpec.v
theories/Proofs/SortProofs.v
theories/Proofs/KdBuild.v
theories/Proofs/KdWalk.v
theories/Proofs/KdNearest.v
theories/Props/Transforms.v
theories/Props/Boxes.v
theories/Props/Shapes.v
theories/Props/Containers.v
theories/Proofs/BBase.v
theories/Proofs/FLaws.v
theories/Proofs/Halton.v
theories/Proofs/HaltonState.v
theories/Proofs/HaltonCRT.v
theories/Proofs/FilmGrid.v
theories/Proofs/FilmOps.v
theories/Proofs/FilmJobs.v
theories/Proofs/Splat.v
theories/Props/Film1.v
theories/Props/Film2.v
theories/Spec/RenderSpec.v
theories/Spec/Ppm.v
theories/Proofs/PpmProofs.v
theories/Proofs/RenderLocal.v
theories/Proofs/Threads.v
theories/Proofs/Order.v
theories/Proofs/Serves.v
theories/Props/HaltonProps.v
theories/Props/RenderProps.v
theories/Props/Film3.v
theories/Proofs/ShadeProofs.v
theories/Proofs/PickProofs.v
theories/Proofs/MicroProofs.v
theories/Props/Shading1.v
theories/Props/Shading2.v
theories/Props/FresnelProps.v
theories/Props/MicrofacetProps.v
theories/Proofs/RankProofs.v
theories/Props/Floats.v
theories/Spec/PathSpec.v
theories/Spec/LightSpec.v
theories/Proofs/PathProofs.v
theories/Props/PathProps.v
theories/Props/Robust.v
theories/Props/Lights.v
theories/Props/Misc.v
theories/Spec/RadianceSpec.v
theories/Props/Radiance.v
theories/Props/Frames.v
theories/Props/Radiance2.v
theories/Spec/EstimatorSpec.v
theories/Props/Estimator.v
theories/Props/Shading3.v
theories/Props/Estimator2.v
theories/Props/Dimensions.v
theories/Spec/EmissionSpec.v
theories/Props/Emission.v
theories/Spec/RoughSpec.v
theories/Props/RoughGlass.v
theories/Spec/DensitySpec.v
theories/Proofs/DensityProofs.v
theories/Props/Density.v
theories/Props/Density2.v
theories/Spec/TameSpec.v
theories/Spec/FinishSpec.v
theories/Proofs/Bounds.v
theories/Proofs/Lengths.v
theories/Proofs/SteadyProofs.v
theories/Proofs/SteadySphere.v
theories/Proofs/SteadySample.v
theories/Proofs/SteadyCamera.v
theories/Proofs/SteadyMirror.v
theories/Proofs/SteadySmooth.v
theories/Proofs/RoughWh.v
theories/Proofs/SteadyRough.v
theories/Props/Robust2.v
theories/Model/HelloWorld.v
theories/Spec/WholeSpec.v
theories/Props/WholeRender.v
theories/Props/Robust3.v
theories/Props/Built.v
theories/Props/Robust4.v
theories/Props/Asserts.v
theories/Props/Units3.v
theories/Props/RandomDebug.v
theories/Props/HelloProps.v
theories/Spec/PassiveSpec.v
theories/Props/Passive.v
theories/Props/Passive2.v
theories/Spec/StreamSpec.v
theories/Props/RandomProps.v
theories/Spec/StratSpec.v
theories/Props/Stratified.v
theories/Spec/SahSpec.v
theories/Props/Sah.v
theories/Spec/LambertSpec.v
theories/Props/Lambert.v
theories/Spec/UnitsSpec.v
theories/Proofs/UnitProofs.v
theories/Props/Units.v
theories/Props/Units2.v
theories/Props/Moved.v
theories/Spec/ErrorSpec.v
theories/Proofs/HitErr.v
theories/Props/HitError.v
theories/Spec/SelfSpec.v
theories/Props/SelfHit.v
theories/Props/Inverse.v
theories/Spec/MeanSpec.v
theories/Proofs/MeanProofs.v
theories/Proofs/Calculus.v
theories/Proofs/DiskIntegral.v
theories/Spec/HemisphereSpec.v
theories/Proofs/HemisphereProofs.v
theories/Props/Roulette.v
theories/Props/Transport.v
theories/Spec/AreaSpec.v
theories/Proofs/AreaProofs.v
theories/Props/Hemisphere.v
theories/Props/Area.v
theories/Spec/RoundSpec.v
theories/Proofs/RoundProofs.v
theories/Proofs/TraceProofs.v
theories/Props/FilmRounding.v
theories/Spec/WatchSpec.v
theories/Props/Accel.v
theories/Spec/LabelSpec.v
theories/Props/Labels.v
theories/Model/Lerp.v
theories/Props/LerpProps.v
theories/Spec/ViewSpec.v
theories/Props/View.v
theories/Model/Failure.v
theories/Spec/FailureSpec.v
theories/Props/FailureProps.v
theories/Spec/MutualSpec.v
theories/Props/Mutual.v
theories/Props/Members.v
theories/Spec/SumSpec.v
theories/Spec/ChannelSpec.v
theories/Props/Superposition.v
theories/Props/MoreLight.v
theories/Props/Channels.v
theories/Props/VertexOrder.v
theories/Props/MeshOrder.v
theories/Props/OrderRounding.v
