-Q theories Verif
theories/AMap.v
theories/AssetModel.v
theories/AssetProofs.v
theories/AssetSpec.v
theories/AuthModel.v
theories/AuthProofs.v
theories/AuthProofs2.v
theories/AuthProofs3.v
theories/AuthProofs4.v
theories/AuthProofs5.v
theories/AuthProofs6.v
theories/AuthProofs7.v
theories/AuthProofs8.v
theories/AuthProofs9.v
theories/AuthRecModel.v
theories/AuthRecProofs.v
theories/AuthRecProofs2.v
theories/AuthRecProofs3.v
theories/AuthRecProofs4.v
theories/AuthRecProofs5.v
theories/AuthRecProofs6.v
theories/AuthRecProofs7.v
theories/AuthRecSpec.v
theories/AuthSpec.v
theories/BudgetModel.v
theories/BudgetProofs.v
theories/BudgetProofs2.v
theories/BudgetSpec.v
theories/ContainerModel.v
theories/ContainerProofs.v
theories/ContainerSpec.v
theories/ConvProofs.v
theories/CtModel.v
theories/CtProofs.v
theories/CtProofs2.v
theories/CtProofs3.v
theories/CtProofs4.v
theories/CtProofs5.v
theories/CtSpec.v
theories/DelegModel.v
theories/DelegProofs.v
theories/DelegProofs2.v
theories/DelegProofs3.v
theories/DelegSpec.v
theories/DiagModel.v
theories/DiagProofs.v
theories/DiagProofs2.v
theories/DiagProofs3.v
theories/DiagSpec.v
theories/DrawProofs.v
theories/DrawProofs2.v
theories/DrawSpec.v
theories/E2EModel.v
theories/E2EProofs.v
theories/E2EProofs2.v
theories/E2EProofs3.v
theories/E2EProofs4.v
theories/E2ESpec.v
theories/EcdsaModel.v
theories/EcdsaSpec.v
theories/EmuModel.v
theories/EmuSpec.v
theories/FeesModel.v
theories/FeesProofs.v
theories/FeesSpec.v
theories/FieldCert.v
theories/FieldModel.v
theories/FieldProofs.v
theories/FieldSpec.v
theories/FrameModel.v
theories/FrameProofs.v
theories/FrameProofs2.v
theories/FrameProofs3.v
theories/FrameProofs4.v
theories/FrameProofs5.v
theories/FrameSpec.v
theories/FrameStore.v
theories/GuestCalls.v
theories/GuestHandles.v
theories/GuestMem2.v
theories/GuestMemProofs.v
theories/GuestModel.v
theories/GuestProofs.v
theories/GuestSafety.v
theories/GuestSpec.v
theories/HeapModel.v
theories/HeapProofs.v
theories/HeapProofs2.v
theories/HeapSpec.v
theories/HostFnModel.v
theories/HostFnProofs.v
theories/HostFnProofs2.v
theories/HostFnSpec.v
theories/IntModel.v
theories/IntProofs.v
theories/IntProofs2.v
theories/IntSpec.v
theories/LifeModel.v
theories/LifeProofs.v
theories/LifeSpec.v
theories/MapFnProofs.v
theories/MeterModel.v
theories/MeterProofs.v
theories/MeterProofs2.v
theories/MeterProofs3.v
theories/MeterSpec.v
theories/MultisigModel.v
theories/MultisigProofs.v
theories/MultisigSpec.v
theories/NetModel.v
theories/NetSpec.v
theories/P_Asset.v
theories/P_Auth.v
theories/P_AuthComplete.v
theories/P_AuthRec.v
theories/P_Budget.v
theories/P_Container.v
theories/P_Ct.v
theories/P_Deleg.v
theories/P_Diag.v
theories/P_Draw.v
theories/P_E2E.v
theories/P_Ecdsa.v
theories/P_Emu.v
theories/P_Fees.v
theories/P_Field.v
theories/P_Frame.v
theories/P_Guest.v
theories/P_Heap.v
theories/P_Int.v
theories/P_Life.v
theories/P_Meter.v
theories/P_Net.v
theories/P_Pay.v
theories/P_PayWork.v
theories/P_Point.v
theories/P_Poseidon.v
theories/P_Rust.v
theories/P_Sac.v
theories/P_SacEvent.v
theories/P_SacLedger.v
theories/P_Serial.v
theories/P_Sign.v
theories/P_Sim.v
theories/P_Storage.v
theories/P_Strkey.v
theories/P_Tally.v
theories/P_Val.v
theories/P_Vm.v
theories/PayModel.v
theories/PayProofs.v
theories/PayProofs2.v
theories/PayProofs3.v
theories/PaySpec.v
theories/PayWorkSpec.v
theories/PointModel.v
theories/PointProofs.v
theories/PointProofs2.v
theories/PointSpec.v
theories/PoseidonModel.v
theories/PoseidonProofs.v
theories/PoseidonProofs2.v
theories/PoseidonProofs3.v
theories/PoseidonProofs4.v
theories/PoseidonSpec.v
theories/Prelude.v
theories/PrimeProofs.v
theories/PrngModel.v
theories/PrngProofs.v
theories/ReplayProofs.v
theories/RustModel.v
theories/RustProofs.v
theories/RustSpec.v
theories/SacEventModel.v
theories/SacEventSpec.v
theories/SacLedgerModel.v
theories/SacLedgerProofs.v
theories/SacLedgerProofs2.v
theories/SacLedgerProofs3.v
theories/SacLedgerProofs4.v
theories/SacLedgerSpec.v
theories/SacModel.v
theories/SacProofs.v
theories/SacProofs2.v
theories/SacProofs3.v
theories/SacProofs4.v
theories/SacProofs5.v
theories/SacSpec.v
theories/SeqProofs.v
theories/SeqSpecProofs.v
theories/SerialModel.v
theories/SerialProofs.v
theories/SerialProofs2.v
theories/SerialSpec.v
theories/SimFloatProofs.v
theories/SimModel.v
theories/SimProofs.v
theories/SimProofs2.v
theories/SimSpec.v
theories/StorageLogic.v
theories/StorageModel.v
theories/StorageProofs.v
theories/StorageProofs2.v
theories/StorageProofs3.v
theories/StorageSpec.v
theories/StrkeyModel.v
theories/StrkeyProofs.v
theories/StrkeyProofs2.v
theories/StrkeySpec.v
theories/SymbolProofs.v
theories/TallyProofs.v
theories/TallySpec.v
theories/TreeProofs.v
theories/ValModel.v
theories/ValProofs.v
theories/ValSpec.v
theories/VmModel.v
theories/VmProofs.v
theories/VmProofs2.v
theories/VmSpec.v
theories/VmTable.v
theories/WideProofs.v
theories/XdrModel.v
theories/XdrProofs.v
theories/XdrSpec.v
