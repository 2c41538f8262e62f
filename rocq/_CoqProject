-Q theories Verif
theories/Bytes.v
theories/Go.v
theories/Aes.v
theories/AesProofs.v
theories/Gcm.v
theories/GcmProofs.v
theories/Kwp.v
theories/KwpProofs.v
theories/Kmac.v
theories/KmacSpec.v
theories/KmacProofs.v
theories/Vectors.v
theories/Base64.v
theories/Base64Proofs.v
theories/Json.v
theories/JsonProofs.v
theories/Uuid.v
theories/UuidProofs.v
theories/Time.v
theories/TimeProofs.v
theories/Types.v
theories/TypesProofs.v
theories/World.v
theories/Cryptor.v
theories/CryptorProofs.v
theories/Password.v
theories/Id.v
theories/Data.v
theories/D1.v
theories/Logic.v
theories/Io.v
theories/IoSpec.v
theories/IoProofs.v
theories/Spec.v
theories/D1Proofs.v
theories/D1Calls.v
theories/SpecProofs.v
theories/History.v
theories/D1Refine.v
theories/D1Local.v
theories/Claims.v
theories/SpecTheory.v
theories/D1Props.v
theories/D1Crash.v
theories/Demo.v
theories/Sched.v
theories/Authority.v
theories/D1Sched.v
theories/P_Objects.v
theories/UpdateCut.v
theories/P_UpdateCrash.v
theories/P_Sched.v
theories/CryptoFacts.v
theories/Threads.v
theories/IoHist.v
theories/TokenFacts.v
theories/MiscFacts.v
theories/Standalone.v
theories/StandaloneSpec.v
theories/WpcFacts.v
theories/StandaloneProofs.v
theories/StandaloneRefine.v
theories/StandaloneHist.v
theories/StandaloneFacts.v
theories/StandaloneDemo.v
theories/P_Races.v
theories/P_Crypto.v
theories/P_Io.v
theories/P_Tokens.v
theories/P_Misc.v
theories/P_Standalone.v
theories/Index.v
theories/IndexSpec.v
theories/IndexProofs.v
theories/IndexRefine.v
theories/IndexHist.v
theories/IndexCost.v
theories/IndexFacts.v
theories/IndexDemo.v
theories/P_Index.v
theories/IndexConcSpec.v
theories/IndexSched.v
theories/IndexSchedDemo.v
theories/P_IndexSched.v
theories/IndexConc.v
theories/IndexConcDemo.v
theories/P_IndexConc.v
theories/NoPanic.v
theories/NoPanicDemo.v
theories/P_NoPanic.v
theories/KeysProofs.v
theories/P_Keys.v
theories/Kinds.v
theories/KindsProofs.v
theories/P_Kinds.v
theories/TextProofs.v
theories/P_Text.v
theories/Slices.v
theories/SlicesSpec.v
theories/SlicesProofs.v
theories/SlicesAead.v
theories/SlicesDemo.v
theories/P_Slices.v
theories/D1ConcSpec.v
theories/D1Conc.v
theories/D1ConcDemo.v
theories/P_D1Conc.v
theories/IdAuthority.v
theories/SaSched.v
theories/Lib.v
theories/LibSched.v
theories/SharedTek.v
theories/LibDemo.v
theories/P_Lib.v
theories/SaConcSpec.v
theories/SaConc.v
theories/SaConcAll.v
theories/SaConcDemo.v
theories/P_SaConc.v
theories/IndexOwnSpec.v
theories/IndexOwn.v
theories/IndexOwnAll.v
theories/IndexOwnDemo.v
theories/P_IndexOwn.v
theories/Gf128.v
theories/GcmSpec.v
theories/GcmAuth.v
theories/GcmCase.v
theories/P_Gcm.v
theories/Foot.v
theories/LibSpec.v
theories/LibHist.v
theories/LibCor.v
theories/Honest.v
theories/HonestIx.v
theories/LibHonest.v
theories/LibHistDemo.v
theories/P_LibHist.v
theories/FreshSpec.v
theories/Fresh.v
theories/FreshDemo.v
theories/P_Fresh.v
theories/TrafficSpec.v
theories/Traffic.v
theories/TrafficDemo.v
theories/P_Traffic.v
theories/Log.v
theories/LogSpec.v
theories/LogProofs.v
theories/LogCalls.v
theories/LogPool.v
theories/LogDemo.v
theories/P_Log.v
theories/KmacObj.v
theories/KmacObjSpec.v
theories/KmacObjProofs.v
theories/P_Hash.v
theories/CrashSpec.v
theories/CrashProofs.v
theories/CrashFacts.v
theories/P_CrashHist.v
theories/LibCrashSpec.v
theories/LibCrash.v
theories/LibCrashFacts.v
theories/LibCrashDemo.v
theories/P_LibCrash.v
theories/LibConcSpec.v
theories/LibTouch.v
theories/LibConc.v
theories/LibConcParts.v
theories/LibConcOrder.v
theories/LibConcMerge.v
theories/LibConcDemo.v
theories/P_LibConc.v
theories/LibConcUseSpec.v
theories/LibConcUse.v
theories/LibSeq.v
theories/LibRevokeDemo.v
theories/LibRevokeCase.v
theories/P_LibConcUse.v
theories/LibReadSpec.v
theories/LibRead.v
theories/LibPart.v
theories/LibReadDemo.v
theories/LibReadCase.v
theories/P_LibRead.v
theories/LibListSpec.v
theories/LibList.v
theories/LibListDemo.v
theories/P_LibList.v
theories/LibUserSpec.v
theories/LibUser.v
theories/LibUserDemo.v
theories/P_LibUser.v
theories/LibOriginSpec.v
theories/LibOrigin.v
theories/LibOriginDemo.v
theories/P_LibOrigin.v
theories/ProgressSpec.v
theories/Progress.v
theories/ProgressDemo.v
theories/P_Progress.v
theories/DamageSpec.v
theories/Damage.v
theories/DamageDemo.v
theories/P_Damage.v
theories/DamageTokenSpec.v
theories/DamageToken.v
theories/DamageTokenDemo.v
theories/P_DamageToken.v
