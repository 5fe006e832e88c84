-Q theories Verif
theories/Base.v
theories/Bits.v
theories/SaberPoly.v
theories/SaberCodec.v
theories/SaberCodec2.v
theories/SaberCodec3.v
theories/Ring.v
theories/SaberRing.v
theories/SaberKem.v
theories/SaberVec.v
theories/SaberNoise.v
theories/SaberSpec.v
theories/SaberDec.v
theories/SaberDec2.v
theories/SaberFacts.v
theories/SaberCbd.v
theories/SaberWitness.v
theories/PropsSaber.v
theories/Crypto.v
theories/Symmetric.v
theories/PropsSym.v
theories/Driver.v
theories/Eue.v
theories/PropsEue.v
theories/Pakes.v
theories/PropsPake.v
theories/Ibkes.v
theories/IbkeSpec.v
theories/PropsSigDh.v
theories/PropsHmqv.v
theories/PropsFg.v
theories/PropsSigma.v
theories/IbkeToy.v
theories/Latke.v
theories/LatkeSim.v
theories/LatkeHist.v
theories/PropsLatke.v
theories/PropsLatke2.v
theories/Chip.v
theories/PropsChip.v
theories/PropsKeys.v
theories/Keccak.v
theories/KeccakSpec.v
theories/KeccakPerm.v
theories/KeccakSponge.v
theories/KeccakProps.v
theories/PropsKeccak.v
theories/DilArith.v
theories/DilNtt.v
theories/DilNttProof.v
theories/DilNttEval.v
theories/DilNttSpec.v
theories/DilPoly.v
theories/DilPack.v
theories/DilCodec.v
theories/DilCodec2.v
theories/Format.v
theories/SaberFull.v
theories/SaberReload.v
theories/DilHint.v
theories/DilOps.v
theories/DilSample.v
theories/DilSampleSpec.v
theories/DilRound.v
theories/DilSign.v
theories/DilCorrect.v
theories/DilProps.v
theories/DilRing.v
theories/DilSpec.v
theories/DilSpec2.v
theories/DilFormat.v
theories/DilWitness.v
theories/DilShake.v
theories/DilShake2.v
theories/KeccakWitness.v
theories/SigmaDil.v
theories/PropsPanic.v
theories/PropsPanic2.v
theories/PropsAccept.v
theories/PropsAccept2.v
theories/PropsMatch.v
theories/PropsMatch2.v
theories/PropsBind.v
theories/PropsConv.v
theories/PropsConv2.v
theories/PropsKc.v
theories/PropsKc2.v
theories/PropsFg2.v
theories/PropsCake.v
theories/AvxMachine.v
theories/AvxSym.v
theories/AvxSymOk.v
theories/AvxNtt.v
theories/AvxPoint.v
theories/AvxPoly.v
theories/AvxBytes.v
theories/AvxBytesOk.v
theories/AvxCodecOk.v
theories/AvxSign.v
theories/AvxSample.v
theories/AvxSignOk.v
theories/AvxSignOk2.v
theories/AvxVerifyOk.v
theories/AvxSpec.v
theories/AvxDiff.v
theories/AvxMixed.v
theories/KeccakX4.v
theories/KeccakX4Ok.v
theories/FipsX4Ok.v
theories/AvxShake.v
theories/AvxShake2.v
theories/AvxEta.v
theories/AvxKeypair.v
theories/AvxKeccakWitness.v
theories/A64Machine.v
theories/A64Rel.v
theories/A64Sym.v
theories/A64SymOk.v
theories/A64Ntt.v
theories/A64Elem.v
theories/A64Elem2.v
theories/A64T1.v
theories/A64Sample.v
theories/A64Sign.v
theories/A64SignOk.v
theories/A64SignOk2.v
theories/A64Props.v
theories/A64Keccak.v
theories/A64Fips.v
theories/A64Shake.v
theories/A64Keypair.v
theories/AllBuilds.v
theories/AllBuilds2.v
theories/AllMixed.v
theories/Meets.v
theories/Meets2.v
theories/AllOpen.v
