-Q theories Verif
theories/Scalar.v
theories/Linalg.v
theories/Householder.v
theories/Bundles.v
theories/Extrinsics.v
theories/Perspective.v
theories/Orthographic.v
theories/Camera.v
theories/RayIntersection.v
theories/Linearize.v
theories/Rows.v
theories/Spec.v
theories/RealBase.v
theories/VecLemmas.v
theories/BatchProofs.v
theories/ExtrinsicsProofs.v
theories/PropBatch.v
theories/PiProofs.v
theories/FromViewProofs.v
theories/FloatBase.v
theories/FloatExtProofs.v
theories/CacheProofs.v
theories/PropExtrinsics.v
theories/IntrinsicsProofs.v
theories/FloatIntrProofs.v
theories/FloatRound.v
theories/FloatNormProofs.v
theories/CameraProofs.v
theories/PropIntrinsics.v
theories/PropCamera.v
theories/QRProofs.v
theories/CamMatProofs.v
theories/JacProofs.v
theories/FloatCamProofs.v
theories/PropCamMat.v
theories/IsectBase.v
theories/SpecIsect.v
theories/IsectProofs.v
theories/SpectralProofs.v
theories/PropIsect.v
theories/Serde.v
theories/SpecSerde.v
theories/SerdeProofs.v
theories/SerdeProofs2.v
theories/PropSerde.v
theories/TestUtils.v
theories/TestUtilsProofs.v
theories/PropTestUtils.v
theories/Svg.v
theories/SpecSvg.v
theories/SvgProofs.v
theories/PropSvg.v
theories/SpecFloatErr.v
theories/FloatErrProofs.v
theories/FloatErrProofs2.v
theories/PropFloatErr.v
theories/FloatApprox.v
theories/FloatRigidProofs.v
theories/FloatProjProofs.v
theories/FloatWorldProofs.v
theories/PropFloatWorld.v
theories/SpecGeom.v
theories/GeomProofs.v
theories/GeomProofs2.v
theories/GeomProofs3.v
theories/PropGeom.v
theories/UniqueProofs.v
theories/SpecTri.v
theories/TriProofs.v
theories/PropTri.v
theories/FloatDirProofs.v
theories/FloatDirProofs2.v
theories/PropFloatDir.v
theories/SpecFloatIsect.v
theories/FloatIsectProofs.v
theories/FloatIsectProofs2.v
theories/FloatIsectProofs3.v
theories/FloatIsectProofs4.v
theories/Convert.v
theories/FloatIsectProofs5.v
theories/PropFloatIsect.v
theories/Equality.v
theories/Examples.v
theories/SpecEq.v
theories/EqualityProofs.v
theories/ExamplesProofs.v
theories/PropEq.v
theories/CubeProofs.v
theories/PropCube.v
theories/FloatViewProofs.v
theories/FloatViewProofs2.v
theories/PropFloatView.v
theories/SpecFloatMat.v
theories/FloatJacProofs.v
theories/FloatJacProofs2.v
theories/PropFloatMat.v
theories/SpecFloatTri.v
theories/SpecFloatTri2.v
theories/FloatTriProofs.v
theories/FloatTriProofs2.v
theories/FloatTriProofs3.v
theories/PropFloatTri.v
theories/SymEigen.v
theories/SpecSvd.v
theories/SymEigenProofs.v
theories/SymEigenProofs2.v
theories/SymEigenProofs3.v
theories/SymEigenProofs4.v
theories/SymEigenProofs5.v
theories/SymEigenProofs6.v
theories/SymEigenProofs7.v
theories/SymEigenProofs8.v
theories/SymEigenProofs9.v
theories/SymEigenProofs10.v
theories/PropSvd.v
theories/FloatQRProofs.v
theories/FloatQRProofs2.v
theories/RQPerturbProofs.v
theories/FloatRQProofs.v
theories/SpecFloatRQ.v
theories/FloatRQProofs2.v
theories/FloatRQProofs3.v
theories/FloatRQProofs4.v
theories/FloatRQProofs5.v
theories/FloatRQProofs6.v
theories/FloatRQProofs7.v
theories/FloatRQProofs8.v
theories/PropFloatRQ.v
theories/PropFloatRQ2.v
theories/SpecFloatSvd.v
theories/FloatSvdProofs.v
theories/FloatSvdProofs2.v
theories/FloatSvdProofs3.v
theories/FloatSvdProofs4.v
theories/FloatSvdProofs5.v
theories/FloatSvdProofs6.v
theories/FloatSvdProofs7.v
theories/FloatSvdProofs8.v
theories/FloatSvdProofs9.v
theories/FloatSvdProofs10.v
theories/FloatSvdProofs11.v
theories/FloatSvdProofs12.v
theories/FloatSvdProofs13.v
theories/FloatSvdProofs14.v
theories/FloatSvdProofs15.v
theories/FloatSvdProofs16.v
theories/PropFloatSvd.v
theories/PropFloatSvd2.v
theories/SpecFloatSvd2.v
theories/FloatSvdProofs17.v
theories/FloatSvdProofs18.v
theories/FloatSvdProofs19.v
theories/FloatSvdProofs20.v
theories/FloatSvdProofs21.v
theories/FloatSvdProofs22.v
theories/FloatSvdProofs23.v
theories/FloatSvdProofs24.v
theories/PropFloatSvd3.v
theories/PropFloatSvd4.v
theories/FloatSvdProofs25.v
theories/FloatSvdProofs26.v
theories/FloatSvdProofs27.v
theories/FloatSvdProofs28.v
theories/FloatSvdProofs29.v
theories/FloatSvdProofs30.v
theories/PropFloatSvd5.v
theories/PropFloatSvd6.v
theories/PropFloatSvd7.v
theories/SpecFloatTri3.v
theories/SpecFloatTri4.v
theories/FloatSvdProofs31.v
theories/FloatSvdProofs32.v
theories/FloatSvdProofs33.v
theories/PropFloatSvd8.v
theories/PropFloatSvd9.v
theories/PropFloatSvd10.v
theories/FloatSvdProofs34.v
theories/PropFloatSvd11.v
