-Q theories Verif
theories/Model/Base.v
theories/Model/Words.v
theories/Model/Add.v
theories/Model/Shift.v
theories/Spec/Val.v
theories/Proofs/Basics.v
theories/Proofs/AddProofs.v
theories/Model/FastDivide.v
theories/Proofs/ShiftProofs.v
theories/Proofs/FastDivideProofs.v
theories/Model/DivWord.v
theories/Model/Memory.v
theories/Model/Mul.v
theories/Proofs/DivWordProofs.v
theories/Proofs/MulWordProofs.v
theories/Proofs/MulProofs.v
theories/Proofs/MulFull.v
theories/Model/Div.v
theories/Proofs/DivProofs.v
theories/Model/Buffer.v
theories/Model/UBig.v
theories/Model/IBig.v
theories/Model/Convert.v
theories/Model/AddOps.v
theories/Spec/Num.v
theories/Spec/Prim.v
theories/Spec/Digits.v
theories/Spec/Float.v
theories/Spec/Text.v
theories/Spec/ParseResult.v
theories/Spec/FmtText.v
theories/Spec/Modular.v
theories/Spec/Rand.v
theories/Spec/Ideal.v
theories/Spec/ModularText.v
theories/Spec/Literal.v
theories/Spec/Order.v
theories/Spec/Chunk.v
theories/Spec/Portable.v
theories/Spec/Abstract.v
theories/Spec/PortableApp.v
theories/Spec/Sinks.v
theories/Spec/SerdeCalls.v
theories/Spec/Caught.v
theories/Spec/Factorial.v
theories/Spec/PrimeSearch.v
theories/Spec/Growth.v
theories/Spec/Draws.v
theories/Spec/Bench.v
theories/Spec/ErrorText.v
theories/Proofs/BufferProofs.v
theories/Proofs/AddOpsProofs.v
theories/Proofs/DigitsProofs.v
theories/Proofs/ConvertProofs.v
theories/Model/MulOps.v
theories/Model/ShiftOps.v
theories/Model/Bits.v
theories/Model/DivOps.v
theories/Model/PrimOps.v
theories/Model/Gcd.v
theories/Model/Pow.v
theories/Model/Float.v
theories/Model/Radix.v
theories/Model/Parse.v
theories/Model/Fmt.v
theories/Model/Modular.v
theories/Model/NumTraits.v
theories/Model/Serde.v
theories/Model/Rand.v
theories/Model/Program.v
theories/Model/ModularFmt.v
theories/Model/Macros.v
theories/Model/Ntt.v
theories/Model/RawMemory.v
theories/Model/Client.v
theories/Model/Sink.v
theories/Model/SerdeErr.v
theories/Model/Unwind.v
theories/Model/Cost.v
theories/Model/CostDiv.v
theories/Model/CostOps.v
theories/Model/CostParse.v
theories/Model/CostFmt.v
theories/Model/CostGcd.v
theories/Model/CostModular.v
theories/Model/CostInverse.v
theories/Model/Tools.v
theories/Model/CostBits.v
theories/Model/CostConvert.v
theories/Model/Bench.v
theories/Model/Errors.v
theories/Proofs/MulOpsProofs.v
theories/Proofs/ShiftOpsProofs.v
theories/Proofs/BitsProofs.v
theories/Proofs/BitCountProofs.v
theories/Proofs/DivOpsProofs.v
theories/Proofs/PrimOpsProofs.v
theories/Proofs/Samples.v
theories/Proofs/Bounds.v
theories/Proofs/CloneProofs.v
theories/Proofs/ApiProofs.v
theories/Proofs/Limits.v
theories/Proofs/GcdProofs.v
theories/Proofs/GcdApi.v
theories/Proofs/PowProofs.v
theories/Proofs/FloatProofs.v
theories/Proofs/RadixProofs.v
theories/Proofs/ParseProofs.v
theories/Proofs/ParseApi.v
theories/Proofs/DigitWriterProofs.v
theories/Proofs/FmtProofs.v
theories/Proofs/FmtApi.v
theories/Proofs/FmtRound.v
theories/Proofs/ModularProofs.v
theories/Proofs/ModularApi.v
theories/Proofs/ModularPow.v
theories/Proofs/ModularTheorems.v
theories/Proofs/TextSamples.v
theories/Proofs/NumTraitsProofs.v
theories/Proofs/SerdeProofs.v
theories/Proofs/RandProofs.v
theories/Proofs/ProgramProofs.v
theories/Proofs/ModularFmtProofs.v
theories/Proofs/MacrosProofs.v
theories/Proofs/OrderProofs.v
theories/Proofs/NttProofs.v
theories/Proofs/RawMemoryProofs.v
theories/Proofs/PortableProofs.v
theories/Proofs/ClientProofs.v
theories/Proofs/PortableAppProofs.v
theories/Proofs/SinkProofs.v
theories/Proofs/SerdeErrProofs.v
theories/Proofs/Scratch.v
theories/Proofs/ModularRoom.v
theories/Proofs/GcdPortable.v
theories/Proofs/Roomier.v
theories/Proofs/CaughtProofs.v
theories/Proofs/DepthProofs.v
theories/Proofs/CostProofs.v
theories/Proofs/CostBounds.v
theories/Proofs/CostTheorems.v
theories/Proofs/CostDivProofs.v
theories/Proofs/CostRates.v
theories/Proofs/CostOpsProofs.v
theories/Proofs/CostOpsBounds.v
theories/Proofs/CostParseProofs.v
theories/Proofs/CostDivOps.v
theories/Proofs/CostOperators.v
theories/Proofs/CostFmtProofs.v
theories/Proofs/CostFmtBounds.v
theories/Proofs/CostFmtSteps.v
theories/Proofs/CostFmtApi.v
theories/Proofs/CostGcdProofs.v
theories/Proofs/CostGcdSteps.v
theories/Proofs/CostGcdTheorems.v
theories/Proofs/CostModularProofs.v
theories/Proofs/CostModularPow.v
theories/Proofs/CostModularTheorems.v
theories/Proofs/CostInverseProofs.v
theories/Proofs/FactorialProofs.v
theories/Proofs/PrimitiveRoots.v
theories/Proofs/PrimeTest.v
theories/Proofs/PrimeToolProofs.v
theories/Proofs/RootSearchProofs.v
theories/Proofs/PrimeSearchProofs.v
theories/Proofs/NttConstants.v
theories/Proofs/LimitsProofs.v
theories/Proofs/CostBitsProofs.v
theories/Proofs/CostBitsSteps.v
theories/Proofs/CostBitsTheorems.v
theories/Proofs/CostBitsApi.v
theories/Proofs/ProgramRefuted.v
theories/Proofs/ScratchLinear.v
theories/Proofs/CostConvertProofs.v
theories/Proofs/RandCost.v
theories/Proofs/BenchProofs.v
theories/Proofs/ErrorsProofs.v
theories/Proofs/ValidProofs.v
theories/Props/C01.v
theories/Props/C02.v
theories/Props/C03.v
theories/Props/C04.v
theories/Props/C05.v
theories/Props/C06.v
theories/Props/C07.v
theories/Props/C08.v
theories/Props/C09.v
theories/Props/C10.v
theories/Props/C11.v
theories/Props/C12.v
theories/Props/C13.v
theories/Props/C14.v
theories/Props/C15.v
theories/Props/C16.v
theories/Props/C17.v
theories/Props/C18.v
theories/Props/C19.v
theories/Props/C20.v
theories/Props/C21.v
theories/Props/C22.v
theories/Props/C23.v
theories/Props/C24.v
theories/Props/C25.v
theories/Props/C26.v
theories/Props/C27.v
theories/Props/C28.v
theories/Props/C29.v
theories/Props/C30.v
theories/Props/C31.v
theories/Props/C32.v
theories/Props/C33.v
theories/Props/C34.v
theories/Props/C35.v
theories/Props/C36.v
theories/Props/C37.v
theories/Props/C38.v
theories/Props/C39.v
theories/Props/C40.v
theories/Props/C41.v
theories/Props/C42.v
theories/Props/C43.v
theories/Props/C44.v
theories/Props/C45.v
theories/Props/C46.v
theories/Props/C47.v
theories/Props/C48.v
theories/Props/C49.v
theories/Props/C50.v
theories/Props/C51.v
theories/Props/C52.v
theories/Props/C53.v
theories/Props/C54.v
theories/Props/C55.v
theories/Props/C56.v
theories/Props/C57.v
theories/Props/C58.v
theories/Props/C59.v
theories/Props/C60.v
theories/Props/C61.v
theories/Props/C62.v
theories/Props/C63.v
theories/Props/C64.v
theories/Props/C65.v
theories/Props/C66.v
theories/Props/C67.v
theories/Props/C68.v
theories/Props/C69.v
theories/Props/C70.v
theories/Props/C71.v
theories/Props/C72.v
theories/Props/C73.v
theories/Props/C74.v
theories/Tests/Harness.v
theories/Tests/TestAdd.v
theories/Tests/TestBits.v
theories/Tests/TestCmp.v
theories/Tests/TestConvert.v
theories/Tests/TestDiv.v
theories/Tests/TestGcd.v
theories/Tests/TestModular.v
theories/Tests/TestMul.v
theories/Tests/TestRadix.v
theories/Tests/TestShift.v
theories/Tests/TestUnits.v
theories/Tests/TestDocs.v
