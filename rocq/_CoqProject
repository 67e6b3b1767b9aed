-Q theories Verif
theories/Base.v
theories/Spec.v
theories/SpecFacts.v
theories/Shape.v
theories/Mapping.v
theories/Index.v
theories/View.v
theories/Wf.v
theories/MappingFacts.v
theories/MapOps.v
theories/ReshapeFacts.v
theories/IndexFacts.v
theories/ViewFacts.v
theories/ViewMore.v
theories/PropsView.v
theories/Expr.v
theories/ExprSpec.v
theories/ExprFacts.v
theories/IterFacts.v
theories/SourceFacts.v
theories/ExprTree.v
theories/ExprMore.v
theories/NextFacts.v
theories/PropsExpr.v
theories/Tensor.v
theories/TraceFacts.v
theories/TensorSpec.v
theories/TensorFacts.v
theories/ResizeFacts.v
theories/TensorOps.v
theories/DrainFacts.v
theories/OwnFacts.v
theories/ZipFacts.v
theories/OwnMore.v
theories/History.v
theories/HistoryFacts.v
theories/OwnProps.v
theories/PropsTensor.v
theories/Ops.v
theories/OpsFacts.v
theories/OpsMore.v
theories/PropsOps.v
theories/Serde.v
theories/SerdeSpec.v
theories/SerdeFacts.v
theories/SerdeMore.v
theories/PropsSerde.v
theories/Nested.v
theories/NestedSpec.v
theories/NestedFacts.v
theories/PropsNested.v
theories/Machine.v
theories/MachineSpec.v
theories/MachineFacts.v
theories/MachineViews.v
theories/MachineReshape.v
theories/MachineRun.v
theories/PropsMachine.v
theories/Consume.v
theories/ConsumeSpec.v
theories/ConsumeFacts.v
theories/PropsConsume.v
theories/Pointer.v
theories/PointerFacts.v
theories/PropsPointer.v
theories/Dtor.v
theories/DtorFacts.v
theories/PropsDtor.v
theories/Macros.v
theories/MacroSpec.v
theories/MacroFacts.v
theories/PropsMacros.v
theories/ExactFacts.v
theories/LaneFacts.v
theories/PropsExact.v
theories/DtorMore.v
theories/DtorMoreFacts.v
theories/PropsDtorMore.v
theories/PropsMore.v
theories/Unsafe.v
theories/PropsUnsafe.v
theories/ExactMore.v
theories/FuseFacts.v
theories/PointerMore.v
theories/TablesFacts.v
theories/PropsTables.v
theories/OwnExact.v
theories/PropsExactMore.v
theories/MachineWrap.v
theories/MachineRelease.v
theories/MachineSteps.v
theories/PropsWrap.v
theories/Handle.v
theories/PropsHandle.v
theories/Sink.v
theories/PropsSink.v
theories/MachineIter.v
theories/MachineIterFacts.v
theories/MachineSources.v
theories/MachineChecks.v
theories/PropsMachineIter.v
theories/PropsPrimitive.v
theories/Program.v
theories/ProgramFacts.v
theories/PropsProgram.v
theories/MachineTensor.v
theories/MachineTensorFacts.v
theories/MachineTensorMore.v
theories/MachineTensorRun.v
theories/PropsMachineTensor.v
theories/Alloc.v
theories/AllocFacts.v
theories/AllocRun.v
theories/PropsAlloc.v
theories/Zst.v
theories/ZstFacts.v
theories/ZstRun.v
theories/PropsZst.v
theories/MachineProgram.v
theories/MachineProgramFacts.v
theories/PropsMachineProgram.v
theories/Select.v
theories/SelectFacts.v
theories/PropsSelect.v
theories/PanicFacts.v
theories/PropsPanic.v
theories/Refer.v
theories/ReferFacts.v
theories/PropsRefer.v
theories/ReferRoom.v
theories/ReferRoomFacts.v
theories/PropsReferRoom.v
theories/ReferMachine.v
theories/ReferMachineFacts.v
theories/PropsReferMachine.v
theories/PropsReferChecked.v
theories/MachineSerde.v
theories/MachineSerdeFacts.v
theories/PropsMachineSerde.v
theories/MachineRows.v
theories/MachineRowsFacts.v
theories/PropsMachineRows.v
theories/MachineArray.v
theories/MachineArrayFacts.v
theories/PropsMachineArray.v
theories/PropsMachineOps.v
