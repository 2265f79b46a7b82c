-Q theories Verif

theories/Num.v
theories/NumLaws.v
theories/Outcome.v
theories/B64.v
theories/GeomModel.v
theories/GeomSpec.v
theories/GeomProofs.v
theories/PropsGeom.v
theories/SeqModel.v
theories/SeqSpec.v
theories/HaltonProofs.v
theories/SeqProofs.v
theories/PropsSeq.v
theories/ColorModel.v
theories/SamplerModel.v
theories/SamplerSpec.v
theories/SamplerProofs.v
theories/PoolProofs.v
theories/SamplerNum.v
theories/SamplerFacts.v
theories/PropsSampler.v
theories/ObjModel.v
theories/TreeModel.v
theories/ObjSpec.v
theories/ObjProofs.v
theories/BoxProofs.v
theories/TransfProofs.v
theories/CsgProofs.v
theories/PrimProofs.v
theories/TreeProofs.v
theories/ParamProofs.v
theories/ObjFacts.v
theories/PropsObj.v
theories/MeshSpec.v
theories/MeshProofs.v
theories/MeshHits.v
theories/ShapeProofs.v
theories/RectProofs.v
theories/DiskProofs.v
theories/BoundsSpec.v
theories/BoundsProofs.v
theories/MeshFacts.v
theories/PropsMesh.v
theories/SceneModel.v
theories/SceneSpec.v
theories/SceneProofs.v
theories/CtxProofs.v
theories/ShadeProofs.v
theories/LightProofs.v
theories/MediaProofs.v
theories/CamProofs.v
theories/LookSpec.v
theories/LookProofs.v
theories/SceneFacts.v
theories/FinishProofs.v
theories/SunProofs.v
theories/SceneMore.v
theories/PropsScene.v
theories/ImageModel.v
theories/TextureModel.v
theories/ColorProofs.v
theories/PpmSpec.v
theories/PpmProofs.v
theories/ImageSpec.v
theories/ImageProofs.v
theories/PostProofs.v
theories/PostR.v
theories/PostX.v
theories/TextureSpec.v
theories/TextureProofs.v
theories/TextureR.v
theories/PropsImage.v
theories/GlowSpec.v
theories/GlowProofs.v
theories/PropsGlow.v
theories/PropsTexture.v
theories/ApiModel.v
theories/ApiSpec.v
theories/ApiProofs.v
theories/ApiRender.v
theories/ApiView.v
theories/ApiFacts.v
theories/PropsApi.v
theories/ServerModel.v
theories/ServerSpec.v
theories/ServerProofs.v
theories/ServerFacts.v
theories/PropsServer.v
theories/ViewerModel.v
theories/ViewerSpec.v
theories/ViewerProofs.v
theories/ViewerFloat.v
theories/ViewerFacts.v
theories/PropsViewer.v
theories/ParseModel.v
theories/ParseSpec.v
theories/ParseProofs.v
theories/LoadSpec.v
theories/NestProofs.v
theories/LoadProofs.v
theories/ParseFacts.v
theories/PropsParse.v
theories/PlaceModel.v
theories/PlaceSpec.v
theories/PlaceProofs.v
theories/PlaceFacts.v
theories/PropsPlace.v
theories/RenderModel.v
theories/RenderSpec.v
theories/IndepProofs.v
theories/PoolRel.v
theories/RenderProofs.v
theories/RenderFacts.v
theories/PropsRender.v
theories/EquiSpec.v
theories/EquiProofs.v
theories/EquiMean.v
theories/EquiIntSpec.v
theories/EquiInt.v
theories/DiffuseSpec.v
theories/DiffuseProofs.v
theories/DiffuseFrame.v
theories/LimitSpec.v
theories/LimitProofs.v
theories/LimitFacts.v
theories/PropsLimit.v
theories/FloatSpec.v
theories/BoxFloat.v
theories/FloatErr.v
theories/SphereFloat.v
theories/NormFloat.v
theories/PropsFloat.v
theories/CheckModel.v
theories/CheckSpec.v
theories/CheckProofs.v
theories/PropsCheck.v
theories/SplitSpec.v
theories/SplitProofs.v
theories/PropsSplit.v
theories/FogSpec.v
theories/FogProofs.v
theories/FogLimit.v
theories/PropsFog.v
theories/ControlSpec.v
theories/ControlProofs.v
theories/PropsControl.v
theories/LightLook.v
theories/LampSpec.v
theories/LampProofs.v
theories/LampFacts.v
theories/PropsLamp.v
theories/WindowSpec.v
theories/WindowProofs.v
theories/WindowFacts.v
theories/PropsWindow.v
theories/EquiAdd.v
theories/LitFacts.v
theories/LitSpec.v
theories/LampSound.v
theories/LitLamp.v
theories/LitArea.v
theories/LitBall.v
theories/LitPoint.v
theories/LitExample.v
theories/PropsLit.v
theories/TriSpec.v
theories/TriFloat.v
theories/TriProofs.v
theories/PropsTri.v
theories/TestModel.v
theories/TestSpec.v
theories/TestProofs.v
theories/TestObjects.v
theories/PropsTest.v
theories/RectFloat.v
theories/PropsSelf.v
theories/ScatterSpec.v
theories/CosFloat.v
theories/CosSharp.v
theories/PropsScatter.v
theories/TurnSpec.v
theories/RotFloat.v
theories/CamFloat.v
theories/TurnFloat.v
theories/PropsTurn.v
theories/CmdModel.v
theories/CmdSpec.v
theories/CmdProofs.v
theories/PropsCmd.v
theories/MeshFloat.v
theories/IsoSpec.v
theories/IsoProofs.v
theories/PropsIso.v
theories/MirrorSpec.v
theories/MirrorFloat.v
theories/PropsMirror.v
theories/DullSpec.v
theories/DullProofs.v
theories/PropsDull.v
theories/ToneModel.v
theories/ToneSpec.v
theories/ToneProofs.v
theories/PropsTone.v
theories/ShineSpec.v
theories/ShineFloat.v
theories/ShineProofs.v
theories/ShineScene.v
theories/ShineImage.v
theories/ShineRender.v
theories/ShineExample.v
theories/PropsShine.v
theories/CentreProofs.v
theories/SlopeProofs.v
theories/PropsSlope.v
theories/MeanSpec.v
theories/MeanFloat.v
theories/MeanProofs.v
theories/PropsMean.v
theories/LookupSpec.v
theories/LookupFloat.v
theories/PixelFloat.v
theories/PropsLookup.v
theories/BoxSelf.v
theories/PropsBoxSelf.v
theories/SolidProofs.v
theories/NanProofs.v
theories/PropsSolid.v
theories/CappedProofs.v
theories/PropsCapped.v
theories/CrossProofs.v
theories/PropsCross.v
theories/MovedProofs.v
theories/CsgSpec.v
theories/CsgTrees.v
theories/PropsCsg.v
theories/FenceProofs.v
theories/PropsFence.v
theories/FracProofs.v
theories/PropsFrac.v
