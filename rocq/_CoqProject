-Q theories Verif
theories/Base.v
theories/FormatModel.v
theories/SaveFormats.v
theories/FormatSpec.v
theories/ContainerSpec.v
theories/FormatLayoutSpec.v
theories/ConverterModel.v
theories/FormatProofs.v
theories/PropsFormats.v
theories/ConverterSpec.v
theories/SchedProofs.v
theories/TilingProofs.v
theories/PropsConvert.v
theories/TextureModel.v
theories/TextureSpec.v
theories/TextureProofs.v
theories/CustomMipModel.v
theories/PropsTexture.v
theories/PropsMips.v
theories/SaveModel.v
theories/SaveSpec.v
theories/SaveProofs.v
theories/SaveSized.v
theories/SaveRead.v
theories/SaveReadDds.v
theories/SaveReadKtx.v
theories/SaveReadPvr.v
theories/PropsSave.v
theories/FloatModel.v
theories/PixelModel.v
theories/FloatSpec.v
theories/FloatProofs.v
theories/PixelSpec.v
theories/PixelProofs.v
theories/PackProofs.v
theories/PropsPixel.v
theories/PropsSigned.v
theories/ToolModel.v
theories/ToolSpec.v
theories/PropsTool.v
theories/CommandLineModel.v
theories/CommandLineSpec.v
theories/CommandFilesSpec.v
theories/CommandLineProofs.v
theories/CommandLineInv.v
theories/CommandLineMips.v
theories/PropsCommandLine.v
theories/PropsCommandSafe.v
theories/PropsCommandFiles.v
theories/CommandGrammar.v
theories/CommandGrammarCut.v
theories/CommandGrammarProofs.v
theories/PropsCommandGrammar.v
theories/AstcCacheModel.v
theories/AstcCacheSpec.v
theories/PropsAstc.v
theories/ArithModel.v
theories/ImageModel.v
theories/ImageLoops.v
theories/ArithSpec.v
theories/DoubleProofs.v
theories/ImageSpec.v
theories/ImageStoreProofs.v
theories/ImageGrayProofs.v
theories/ImageOpsProofs.v
theories/ImageApiProofs.v
theories/ImageValueProofs.v
theories/PropsImage.v
theories/PropsSwizzle.v
theories/PropsColor.v
theories/ArithReal.v
theories/PropsSrgb.v
theories/AdjustModel.v
theories/AdjustSpec.v
theories/AdjustProofs.v
theories/PropsAdjust.v
theories/ResizeModel.v
theories/ResizeSpec.v
theories/ResizeLoops.v
theories/ResizeRealProofs.v
theories/PropsResize.v
theories/PropsSize.v
theories/ResizeAxis64.v
theories/ResizeSum64.v
theories/ResizeAvg64.v
theories/PropsResize64.v
theories/PropsMips64.v
theories/PropsMipsSrgb.v
theories/SrgbSpec.v
theories/Srgb64.v
theories/SrgbChannel.v
theories/SrgbMap.v
theories/SrgbPow.v
theories/PropsSrgb64.v
theories/PropsSrgbOps.v
theories/ImageConvertModel.v
theories/ImageConvertSpec.v
theories/ImageConvertProofs.v
theories/PropsConvertImage.v
theories/ImageObjectModel.v
theories/ImageObjectSpec.v
theories/ImageObjectProofs.v
theories/PropsImageObject.v
theories/BlockModel.v
theories/BlockSpec.v
theories/BlockProofs.v
theories/PropsBlock.v
theories/NormalModel.v
theories/NormalSpec.v
theories/NormalProofs.v
theories/PropsNormal.v
theories/PipelineModel.v
theories/PipelineSpec.v
theories/PipelineProofs.v
theories/PipelineBuild.v
theories/PipelineRun.v
theories/PropsPipeline.v
theories/StreamModel.v
theories/StreamSpec.v
theories/StreamProofs.v
theories/PropsStream.v
theories/TextureObjectModel.v
theories/TextureObjectSpec.v
theories/TextureObjectProofs.v
theories/PropsTextureObject.v
theories/HalfModel.v
theories/HalfSpec.v
theories/HalfProofs.v
theories/PropsHalf.v
theories/CompressModel.v
theories/CompressSpec.v
theories/PropsCompress.v
theories/EncodeModel.v
theories/EncodeSpec.v
theories/PropsEncode.v
theories/PropsEncodeTool.v
theories/ToolImageModel.v
theories/ToolImageSpec.v
theories/ToolImageProofs.v
theories/PropsToolImage.v
theories/ToolUFloatSpec.v
theories/PropsToolUFloat.v
theories/ToolBlockSpec.v
theories/PropsToolBlock.v
theories/ToolLevelsSpec.v
theories/ToolLevelsProofs.v
theories/ToolResizedProofs.v
theories/PropsToolLevels.v
theories/ToolVolumeProofs.v
theories/PropsToolVolume.v
theories/MessagesModel.v
theories/MessagesSpec.v
theories/MessagesProofs.v
theories/PropsMessages.v
theories/PropsWords.v
