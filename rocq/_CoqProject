-Q theories Verif
theories/Model_Append.v
theories/Model_Array.v
theories/Model_Block.v
theories/Model_BlockOps.v
theories/Model_Cache.v
theories/Model_Citi.v
theories/Model_Comments.v
theories/Model_Config.v
theories/Model_ConfigLoad.v
theories/Model_ConfigText.v
theories/Model_Cplx.v
theories/Model_DataDict.v
theories/Model_Dim.v
theories/Model_Elements.v
theories/Model_Figures.v
theories/Model_H5File.v
theories/Model_H5Old.v
theories/Model_Hdf5.v
theories/Model_Hyper.v
theories/Model_Kinds.v
theories/Model_MatNames.v
theories/Model_Math.v
theories/Model_Matrix.v
theories/Model_Mdif.v
theories/Model_MdifMat.v
theories/Model_MdifMerge.v
theories/Model_MdifNames.v
theories/Model_MdifWrite.v
theories/Model_Merge.v
theories/Model_MergeBlocks.v
theories/Model_NdArray.v
theories/Model_Network.v
theories/Model_Noise.v
theories/Model_Normalize.v
theories/Model_Passive.v
theories/Model_Path.v
theories/Model_Phase.v
theories/Model_Ports.v
theories/Model_ReadData.v
theories/Model_ReadFiles.v
theories/Model_Si.v
theories/Model_Smith.v
theories/Model_Spdata.v
theories/Model_Split.v
theories/Model_Stream.v
theories/Model_Text.v
theories/Model_Touchstone.v
theories/Model_TsText.v
theories/Model_Units.v
theories/Model_Utils.v
theories/Model_Walk.v
theories/Model_Words.v
theories/Model_Writer.v
theories/Proofs_Array.v
theories/Proofs_Array2.v
theories/Proofs_Array3.v
theories/Proofs_Array4.v
theories/Proofs_Array5.v
theories/Proofs_Array6.v
theories/Proofs_Array7.v
theories/Proofs_Array8.v
theories/Proofs_Block.v
theories/Proofs_Block2.v
theories/Proofs_Block3.v
theories/Proofs_Block4.v
theories/Proofs_BlockOps.v
theories/Proofs_Comments.v
theories/Proofs_ConfigLoad.v
theories/Proofs_ConfigText.v
theories/Proofs_DataDict.v
theories/Proofs_Dim.v
theories/Proofs_Elements.v
theories/Proofs_Elements2.v
theories/Proofs_H5File.v
theories/Proofs_Hyper.v
theories/Proofs_Hyper2.v
theories/Proofs_MatNames.v
theories/Proofs_MdifMat.v
theories/Proofs_MdifMat2.v
theories/Proofs_MdifMerge.v
theories/Proofs_MdifWrite.v
theories/Proofs_MergeBlocks.v
theories/Proofs_NdArray.v
theories/Proofs_Network.v
theories/Proofs_Network2.v
theories/Proofs_Noise.v
theories/Proofs_Normalize.v
theories/Proofs_ReadData.v
theories/Proofs_Split.v
theories/Proofs_Text.v
theories/Proofs_Touchstone.v
theories/Proofs_TsText.v
theories/Proofs_Units.v
theories/Proofs_Utils.v
theories/Proofs_Words.v
theories/Prop_Append.v
theories/Prop_Array.v
theories/Prop_Basics.v
theories/Prop_Block.v
theories/Prop_Block2.v
theories/Prop_BlockInterp.v
theories/Prop_BlockOps.v
theories/Prop_Cache.v
theories/Prop_Citi.v
theories/Prop_Comments.v
theories/Prop_Config.v
theories/Prop_ConfigLoad.v
theories/Prop_ConfigText.v
theories/Prop_Cplx.v
theories/Prop_DataDict.v
theories/Prop_Elements.v
theories/Prop_Errors.v
theories/Prop_Figures.v
theories/Prop_H5File.v
theories/Prop_H5Old.v
theories/Prop_Hyper.v
theories/Prop_Interp.v
theories/Prop_Kinds.v
theories/Prop_MatNames.v
theories/Prop_Math.v
theories/Prop_Matrix.v
theories/Prop_Mdif.v
theories/Prop_MdifMat.v
theories/Prop_MdifMerge.v
theories/Prop_MdifNames.v
theories/Prop_MdifWrite.v
theories/Prop_Merge.v
theories/Prop_MergeBlocks.v
theories/Prop_Network.v
theories/Prop_Noise.v
theories/Prop_Normalize.v
theories/Prop_Passive.v
theories/Prop_Path.v
theories/Prop_Phase.v
theories/Prop_Ports.v
theories/Prop_ReadData.v
theories/Prop_ReadFiles.v
theories/Prop_Si.v
theories/Prop_Smith.v
theories/Prop_Spdata.v
theories/Prop_Split.v
theories/Prop_Stream.v
theories/Prop_Touchstone.v
theories/Prop_TsText.v
theories/Prop_Units.v
theories/Prop_Utils.v
theories/Prop_Walk.v
theories/Prop_Writer.v
theories/Spec_Append.v
theories/Spec_Array.v
theories/Spec_Block.v
theories/Spec_BlockOps.v
theories/Spec_Cache.v
theories/Spec_Citi.v
theories/Spec_Comments.v
theories/Spec_ConfigLoad.v
theories/Spec_ConfigText.v
theories/Spec_DataDict.v
theories/Spec_Elements.v
theories/Spec_Figures.v
theories/Spec_H5File.v
theories/Spec_H5Old.v
theories/Spec_Hyper.v
theories/Spec_Interp.v
theories/Spec_Kinds.v
theories/Spec_Mdif.v
theories/Spec_MdifMat.v
theories/Spec_MdifMerge.v
theories/Spec_MdifNames.v
theories/Spec_MdifWrite.v
theories/Spec_Merge.v
theories/Spec_MergeBlocks.v
theories/Spec_Network.v
theories/Spec_Normalize.v
theories/Spec_Passive.v
theories/Spec_Ports.v
theories/Spec_ReadData.v
theories/Spec_ReadFiles.v
theories/Spec_Smith.v
theories/Spec_Spdata.v
theories/Spec_Split.v
theories/Spec_Touchstone.v
theories/Spec_TsText.v
theories/Spec_Units.v
theories/Spec_Walk.v
theories/Spec_Writer.v
