-Q theories Verif
theories/Base.v
theories/Syntax.v
theories/Prog.v
theories/Message.v
theories/Serializers.v
theories/Traverse.v
theories/Spec.v
theories/Layout.v
theories/ProgFacts.v
theories/EnvFacts.v
theories/Closure.v
theories/Fails.v
theories/ValFacts.v
theories/Pack.v
theories/Unpack.v
theories/Api.v
theories/ApiFacts.v
theories/ApiInv.v
theories/LayoutFacts.v
theories/Registry.v
theories/RegistryFacts.v
theories/Examples.v
theories/ReadOnly.v
theories/IO.v
theories/IOFacts.v
theories/Trunc.v
theories/PropMemory.v
theories/PropFile.v
theories/PropRelease.v
theories/PropReadOnly.v
theories/PropTypes.v
theories/Stable.v
theories/PropLaws.v
theories/PropVirtual.v
theories/Declare.v
theories/PropDeclare.v
theories/Foot.v
theories/PropFoot.v
theories/Construct.v
theories/PropConstruct.v
theories/Tidy.v
theories/PropTidy.v
theories/Views.v
theories/Members.v
theories/ViewSpec.v
theories/ViewFacts.v
theories/ViewRound.v
theories/ViewEq.v
theories/KMap.v
theories/DynViews.v
theories/MembersSpec.v
theories/MembersFacts.v
theories/PropViews.v
theories/PropMembers.v
theories/ObjectIO.v
theories/ObjectFacts.v
theories/PropObjects.v
theories/Crs.v
theories/CrsSpec.v
theories/CrsFacts.v
theories/CrsFoot.v
theories/DynFoot.v
theories/PropCrs.v
theories/Device.v
theories/DeviceFacts.v
theories/PropDevice.v
theories/Pointers.v
theories/PointersSpec.v
theories/PointersFacts.v
theories/PropPointers.v
theories/User.v
theories/UserSpec.v
theories/UserFacts.v
theories/PropUser.v
theories/Select.v
theories/SelectFacts.v
theories/PropSelect.v
theories/Conc.v
theories/ConcFacts.v
theories/PropConc.v
theories/Streams.v
theories/PropStream.v
theories/Land.v
theories/LandFacts.v
theories/SettleFacts.v
theories/PropSettle.v
theories/PropFull.v
theories/Robust.v
theories/RobustFacts.v
theories/PropRobust.v
theories/Torn.v
theories/TornSpec.v
theories/TornFacts.v
theories/TornCut.v
theories/PropTorn.v
theories/Asserts.v
theories/AssertViews.v
theories/AssertMembers.v
theories/PropAsserts.v
theories/Media.v
theories/PropMedia.v
theories/Grow.v
theories/GrowMembers.v
theories/PropGrow.v
theories/PropExchange.v
theories/Startup.v
theories/PropStartup.v
theories/MessageFacts.v
theories/KMessage.v
theories/KMessageFacts.v
theories/PropMessage.v
theories/PropKMessage.v
theories/PropBuilds.v
theories/FootCopy.v
theories/PropRefoot.v
theories/MembersFoot.v
theories/PropKFoot.v
theories/Custom.v
theories/PropCustom.v
theories/Dispatchers.v
theories/Cells.v
theories/DispatchFacts.v
theories/PropDispatch.v
theories/Ndim.v
theories/PropNdim.v
theories/PropMerge.v
theories/PropLeftover.v
theories/Damage.v
theories/PropDamage.v
theories/DamageDyn.v
theories/PropDamageDyn.v
theories/DamageMembers.v
theories/PropDamageMembers.v
theories/PropOnto.v
theories/Conform.v
theories/StreamState.v
theories/PropStreamState.v
theories/ViewFoot.v
theories/KStable.v
theories/PropKStable.v
theories/KRefoot.v
theories/PropKRefoot.v
theories/MapAgain.v
theories/PropMapAgain.v
theories/Inflate.v
theories/PropInflate.v
theories/Patch.v
theories/PropPatch.v
theories/Parts.v
theories/PropParts.v
theories/PropKParts.v
theories/PropKPatch.v
theories/PropKElems.v
