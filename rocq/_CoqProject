-Q theories Verif
theories/Base.v
theories/Floats.v
theories/Value.v
theories/StructMod.v
theories/Format.v
theories/Ser.v
theories/Exec.v
theories/BaseFacts.v
theories/StructFacts.v
theories/FormatFacts.v
theories/Pure.v
theories/SerFacts.v
theories/RefPack.v
theories/RefUnpack.v
theories/Leaf.v
theories/Wire.v
theories/Sample.v
theories/User.v
theories/Field.v
theories/DecFacts.v
theories/Canon.v
theories/Fuel.v
theories/FuelExec.v
theories/NoRec.v
theories/RoundTrip.v
theories/RoundTripMain.v
theories/PropsStruct.v
theories/FormatStr.v
theories/PropsFormat.v
theories/PropsIO.v
theories/PropsRoundTrip.v
theories/PropsAny.v
theories/PropsTrunc.v
theories/PropsFuel.v
theories/PropsStrings.v
theories/PropsBasic.v
theories/PropsAction.v
theories/PropsNum.v
theories/PropsArrays.v
theories/PropsCond.v
theories/PropsRefill.v
theories/Adding.v
theories/PropsAdd.v
theories/PropsFinal.v
theories/Portable.v
theories/PropsOrder.v
theories/Hints.v
theories/HintFacts.v
theories/PropsInherit.v
theories/PropsGeneric.v
theories/Equality.v
theories/PropsEq.v
theories/FloatFacts.v
theories/FloatRound.v
theories/Exact.v
theories/Sure.v
theories/PropsExact.v
theories/Surface.v
theories/SerShape.v
theories/Programs.v
theories/ProgramFacts.v
theories/PropsProgram.v
theories/Accept.v
theories/AcceptProg.v
theories/PropsAccept.v
theories/WireSpec.v
theories/WireFacts.v
theories/Wires.v
theories/PropsWire.v
theories/PropsFloats.v
theories/Frame.v
theories/PropsFrame.v
theories/PropsExcluded.v
theories/ReadSpec.v
theories/ReadFacts.v
theories/Reads.v
theories/PropsReads.v
theories/Init.v
theories/PropsInit.v
theories/Refills.v
theories/PropsRefills.v
theories/PackSpec.v
theories/Packable.v
theories/Packing.v
theories/PropsPack.v
theories/Generics.v
theories/Skeleton.v
theories/PropsGenerics.v
theories/Utils.v
theories/PropsUtils.v
theories/Raises.v
theories/Reached.v
theories/PropsRaises.v
theories/TypeSpec.v
theories/Typed.v
theories/PropsTyped.v
theories/WhySpec.v
theories/Whys.v
theories/Reasons.v
theories/PropsWhy.v
theories/SizeSpec.v
theories/Sizes.v
theories/PropsSize.v
theories/FaultSpec.v
theories/Faults.v
theories/Raising.v
theories/Determined.v
theories/PropsFault.v
theories/LocalSpec.v
theories/Locals.v
theories/PropsLocal.v
theories/BackSpec.v
theories/Backs.v
theories/BackFits.v
theories/PropsBack.v
theories/SteadySpec.v
theories/Steadies.v
theories/PropsSteady.v
theories/PropsCopy.v
theories/PropsPrograms.v
theories/PropsStatement.v
theories/PropsExchange.v
