-Q theories Verif
theories/Machine.v
theories/RVec.v
theories/Trait.v
theories/EnumVec.v
theories/BitFacts.v
theories/Config.v
theories/SlotFacts.v
theories/EvFacts.v
theories/OpFacts.v
theories/ExtendFacts.v
theories/ShiftFacts.v
theories/SwarFacts.v
theories/QueryFacts.v
theories/Spec.v
theories/Program.v
theories/MoreFacts.v
theories/Guard.v
theories/PoolFacts.v
theories/SafetyFacts.v
theories/EnumLike.v
theories/EnumSpec.v
theories/EnumFacts.v
theories/EnumFacts2.v
theories/SparseFacts.v
theories/Builtin.v
theories/BuiltinFacts.v
theories/DeriveFacts.v
theories/Claims.v
theories/ClaimFacts.v
theories/ClaimFacts2.v
theories/FillFacts.v
theories/ClaimFacts3.v
theories/Witness.v
theories/WidthFacts.v
theories/Full.v
theories/RefuteFacts.v
theories/ClaimFacts4.v
theories/ProgFacts.v
theories/SafeAny.v
theories/PropVec.v
theories/PropShift.v
theories/PropGrow.v
theories/PropProg.v
theories/PropWidth.v
theories/PropEnum.v
theories/EnumSet.v
theories/SetFacts.v
theories/EdgeFacts.v
theories/PropSet.v
theories/SetClient.v
theories/SetClientFacts.v
theories/PropSetClient.v
theories/Memory.v
theories/MemFacts.v
theories/MemFacts2.v
theories/MemFacts3.v
theories/PropMemory.v
theories/Inline.v
theories/InlineFacts.v
theories/InlineExact.v
theories/PropInline.v
theories/EffFacts.v
theories/PropEff.v
theories/LayoutSpec.v
theories/Storage.v
theories/StorageFacts.v
theories/PropStorage.v
theories/ShiftExact.v
theories/ShiftWide.v
theories/ExactClaims.v
theories/LimitFacts.v
theories/ExtendExact.v
theories/WideFacts.v
theories/PropExact.v
theories/PropLimit.v
theories/Derive.v
theories/DeriveSpec.v
theories/MacroFacts.v
theories/MacroFacts2.v
theories/MacroFacts3.v
theories/MacroFacts4.v
theories/PropDerive.v
theories/Client.v
theories/ClientFacts.v
theories/SurviveFacts.v
theories/PropClient.v
theories/Capacity.v
theories/CapFacts.v
theories/PropCap.v
theories/Format.v
theories/FormatSpec.v
theories/FormatFacts.v
theories/PropDebug.v
theories/PropBuiltin.v
theories/Unsafe.v
theories/UnsafeFacts.v
theories/PropUnsafe.v
theories/User.v
theories/UserFacts.v
theories/UserSame.v
theories/UserTruth.v
theories/UserTruth2.v
theories/UserTruth3.v
theories/PropUser.v
theories/Relate.v
theories/RelateFacts.v
theories/PropRelate.v
theories/Adaptive.v
theories/PropAdaptive.v
theories/PropUserExact.v
theories/Local.v
theories/LocalFacts.v
theories/LocalFacts2.v
theories/LocalFacts3.v
theories/LocalFacts4.v
theories/PropLocal.v
theories/Profile.v
theories/ProfileFacts.v
theories/ProfileUser.v
theories/PropProfile.v
theories/Allocator.v
theories/AllocatorFacts.v
theories/AllocatorUser.v
theories/PropAllocator.v
theories/Conformance.v
theories/Conformance2.v
theories/Audit.v
