-Q theories Verif
theories/TfLang.v
theories/TfCode256.v
theories/TfCode512.v
theories/TfCode1024.v
theories/TfSpec.v
theories/TfSym.v
theories/TfProofs.v
theories/TfConform.v
theories/TfAlgebra.v
theories/CrypterModel.v
theories/CrypterSpec.v
theories/CrypterContract.v
theories/CrypterProofs.v
theories/CrypterProofs2.v
theories/CrypterProofs3.v
theories/CrypterProofs4.v
theories/CrypterProps.v
theories/Base64Spec.v
theories/CryptorProps.v
theories/Utf8.v
theories/PasswordModel.v
theories/PasswordSpec.v
theories/PasswordProofs.v
theories/PasswordCount.v
theories/PasswordUniform.v
theories/PasswordUniform2.v
theories/PasswordProps.v
theories/FormModel.v
theories/FormSpec.v
theories/FormProps.v
theories/Gf256Model.v
theories/Gf256Spec.v
theories/Gf2Poly.v
theories/Gf256Proofs.v
theories/RsAlgebra.v
theories/RsProofs.v
theories/Gf256Props.v
theories/QrVtab.v
theories/QrModel.v
theories/QrSpec.v
theories/QrBits.v
theories/QrCheck.v
theories/QrInter.v
theories/QrPlan.v
theories/QrStatic.v
theories/QrStatic2.v
theories/QrDraw.v
theories/QrRead.v
theories/QrProps.v
theories/TermModel.v
theories/TermSpec.v
theories/TermProps.v
theories/GoStr.v
theories/CmModel.v
theories/CmSpec.v
theories/CmProofs.v
theories/CmIndex.v
theories/CmProps.v
theories/FsModel.v
theories/RepoModel.v
theories/RepoSpec.v
theories/RepoLines.v
theories/FsProofs.v
theories/RepoScan.v
theories/RepoProps.v
theories/CmdModel.v
theories/CmdSpec.v
theories/CmdProofs.v
theories/FsWrite.v
theories/CmdProps.v
theories/CmdProps2.v
theories/ClipModel.v
theories/ClipSpec.v
theories/ClipProps.v
theories/GlobLex.v
theories/GlobMatch.v
theories/GlobCompile.v
theories/GlobSpec.v
theories/GlobParse.v
theories/GlobProps1.v
theories/GlobUtil.v
theories/GlobUtilProps.v
theories/GlobFactor.v
theories/GlobProps2.v
theories/GlobFragment.v
theories/GlobSem.v
theories/GlobGlue.v
theories/GlobLeaf.v
theories/GlobSeq.v
theories/GlobAlt.v
theories/GlobProps3.v
theories/GenModel.v
theories/GenProps.v
theories/CmSave.v
theories/CmSaveProps.v
theories/CmAcc.v
theories/CmAccProps.v
theories/InsertSpec.v
theories/InsertProps.v
theories/GlobTextSpec.v
theories/GlobText.v
theories/GlobProps4.v
theories/GlobSearch.v
theories/GlobSearchProps.v
theories/SearchRootProps.v
theories/ExactSpec.v
theories/ExactProps.v
theories/GlobGramSpec.v
theories/GlobGram.v
theories/GlobProps5.v
theories/GlobIndexSpec.v
theories/GlobIndex.v
theories/GlobIndex2.v
theories/GlobIndexProps.v
theories/GlobLenSpec.v
theories/GlobLen.v
theories/GlobLenProps.v
theories/EnvSpec.v
theories/EnvProps.v
theories/PathSpec.v
theories/PathProps.v
theories/GlobSafeSpec.v
theories/GlobSafe.v
theories/GlobSafeProps.v
theories/GlobMem.v
theories/GlobMemLogic.v
theories/GlobMemSlices.v
theories/GlobMemSpec.v
theories/GlobMemRefine.v
theories/GlobMemProps.v
theories/GlobNestSpec.v
theories/GlobShare.v
theories/GlobNest.v
theories/GlobNestProps.v
theories/GlobBytesProps.v
theories/GlobTool.v
theories/GlobToolProps.v
theories/GlobDraw.v
theories/GlobDrawSpec.v
theories/GlobDrawClean.v
theories/GlobDrawProps.v
theories/TrimProps.v
theories/GlobTests.v
theories/UnitTests.v
theories/CrypterTests.v
theories/CmdProps3.v
theories/PasswordProps2.v
theories/CmAccProps2.v
theories/CrypterProps2.v
theories/PasswordInt.v
theories/PasswordProps3.v
theories/GlobUtilProps2.v
theories/CmConc.v
theories/CmConcProofs.v
theories/CmConcProps.v
theories/ClipProps2.v
theories/LiveModel.v
theories/LiveProofs.v
theories/LiveTree.v
theories/LiveProps.v
theories/ReadModel.v
theories/ReadProps.v
theories/InsertSteps.v
theories/InsertStepsProps.v
theories/CrypterConc.v
theories/CrypterConcProofs.v
theories/CrypterConcProps.v
theories/InsertInsideProps.v
theories/GlobTimeProps.v
theories/EccConc.v
theories/EccConcProofs.v
theories/EccConcProps.v
theories/PasswordConc.v
theories/PasswordConcProofs.v
theories/PasswordConcProps.v
theories/PasswordProb.v
theories/PasswordProbProps.v
theories/FormProb.v
theories/FormProbProps.v
theories/GlobLexer.v
theories/GlobLexerProofs.v
theories/GlobErrSpec.v
theories/GlobErr.v
theories/GlobErrProps.v
theories/GlobSizeSpec.v
theories/GlobSize.v
theories/GlobSizeProps.v
theories/QrDamageSpec.v
theories/QrDamage.v
theories/QrLevels.v
theories/QrDamageProps.v
theories/GlobLawsSpec.v
theories/GlobLaws.v
theories/GlobLawsProps.v
