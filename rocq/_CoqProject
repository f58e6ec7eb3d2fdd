-Q theories Verif
theories/Base.v
theories/Chars.v
theories/Rfc3986.v
theories/CompSpec.v
theories/MValidate.v
theories/MTrusted.v
theories/PBase.v
theories/PScan.v
theories/PHost.v
theories/PAuth.v
theories/PValidate.v
theories/PTrusted.v
theories/PComps.v
theories/PAscii.v
theories/PTypes.v
theories/PTypes2.v
theories/PropValidate.v
theories/PropComponents.v
theories/Utf8.v
theories/MFormat.v
theories/MWriters.v
theories/MSearch.v
theories/SearchSpec.v
theories/MPct.v
theories/MPath.v
theories/MNormalize.v
theories/MEncode.v
theories/RfcResolve.v
theories/PctSpec.v
theories/PPath.v
theories/PPath2.v
theories/PPath3.v
theories/PPct.v
theories/PPct2.v
theories/PPct3.v
theories/PPct4.v
theories/PPath4.v
theories/PPath5.v
theories/NormSpec.v
theories/EncodeSpec.v
theories/PResolve.v
theories/PRds.v
theories/PNorm.v
theories/PNorm2.v
theories/PNorm3.v
theories/PNorm4.v
theories/PNorm5.v
theories/PNorm6.v
theories/PNorm7.v
theories/PNorm8.v
theories/PropResolve.v
theories/PropNormalize.v
theories/PSearch.v
theories/PropFormat.v
theories/PEncode.v
theories/PEncode2.v
theories/PropEncode.v
theories/MEdit.v
theories/EditSpec.v
theories/PEdit.v
theories/PropEdit.v
theories/MBuild.v
theories/BuildSpec.v
theories/PBuild.v
theories/PBuild2.v
theories/PBuild3.v
theories/PBuild4.v
theories/PropBuild.v
theories/MTemplate.v
theories/MMaybePct.v
theories/MExpand.v
theories/TemplateSpec.v
theories/ExpandSpec.v
theories/PTmpl1.v
theories/PTmpl2.v
theories/PTmpl3.v
theories/TmplErrSpec.v
theories/PTmpl4.v
theories/PExp1.v
theories/PExp2.v
theories/PExp3.v
theories/PExp4.v
theories/PExp5.v
theories/PExp6.v
theories/PExp7.v
theories/PExp8.v
theories/PExp9.v
theories/PExp10.v
theories/PropTemplate.v
theories/MTypes.v
theories/OrderSpec.v
theories/PTypes3.v
theories/PropTypes.v
theories/MError.v
theories/ErrSpec.v
theories/PErr.v
theories/PInst.v
theories/PropErr.v
theories/PTmpl5.v
theories/PropAppend.v
theories/ReservedSpec.v
theories/PExp11.v
theories/PReserved1.v
theories/PReserved2.v
theories/PReserved3.v
theories/PReserved4.v
theories/PReserved5.v
theories/PReserved6.v
theories/PropReserved.v
theories/SafeSpec.v
theories/PTmpl6.v
theories/PropSafe.v
theories/MDebug.v
theories/DebugSpec.v
theories/PDebug.v
theories/PropDebug.v
theories/MFlags.v
theories/FlagsSpec.v
theories/PFlags.v
theories/PropFlags.v
theories/Conform.v
theories/ConformDoc.v
theories/ConformUnit.v
theories/PCommute.v
theories/EquivSpec.v
theories/RoundSpec.v
theories/PRound.v
theories/PEditNorm.v
theories/PropEditNorm.v
theories/DynSpec.v
theories/PDyn.v
theories/PSure.v
theories/PropDyn.v
theories/PBaseNorm.v
theories/PropBaseNorm.v
theories/PropRound.v
theories/PEquiv.v
theories/PropEquiv.v
theories/MSerde.v
theories/SerdeSpec.v
theories/PSerde.v
theories/PropSerde.v
theories/PExact.v
theories/PExact2.v
theories/PropExact.v
theories/PDecode.v
theories/PropDecode.v
theories/ShapeSpec.v
theories/PShape.v
theories/PropShape.v
theories/PLocal.v
theories/PropLocal.v
theories/ReadSpec.v
theories/PRead.v
theories/PropRead.v
theories/PCongr.v
theories/PropCongr.v
theories/RawSpec.v
theories/PRaw.v
theories/PropRaw.v
theories/PEncNorm.v
theories/PTwo.v
theories/PropTwo.v
theories/PEditRes.v
theories/PropEditRes.v
theories/PSize.v
theories/PropSize.v
theories/StepSpec.v
theories/PSteps.v
theories/PSteps2.v
theories/PParent.v
theories/PropSteps.v
theories/HistSpec.v
theories/MHist.v
theories/PHist.v
theories/PropHist.v
theories/CallSpec.v
theories/MCalls.v
theories/PCalls.v
theories/PropCalls.v
theories/MProg.v
theories/PProg.v
theories/PropProg.v
theories/ConfineSpec.v
theories/PConfine.v
theories/PropConfine.v
theories/ChildSpec.v
theories/PChild.v
theories/PChild2.v
theories/PropChild.v
theories/DependSpec.v
theories/PDepend.v
theories/PropDepend.v
theories/SwapSpec.v
theories/PSwap.v
theories/PropSwap.v
theories/PrefixSpec.v
theories/PPrefix.v
theories/PropPrefix.v
theories/CharsetSpec.v
theories/PCharset.v
theories/PropCharset.v
theories/RelSpec.v
theories/PRel.v
theories/PropRel.v
theories/TmplNormSpec.v
theories/PTmplNorm.v
theories/PropTmplNorm.v
theories/WriteSpec.v
theories/PWrite.v
theories/PropWrite.v
theories/IterSpec.v
theories/PIter.v
theories/PVars.v
theories/PropIter.v
theories/IpSpec.v
theories/PIp.v
theories/PIp2.v
theories/PropIp.v
theories/ViewSpec.v
theories/PView.v
theories/PView2.v
theories/PView3.v
theories/PropView.v
theories/MOffset.v
theories/POffset.v
theories/POffset2.v
theories/POffset3.v
theories/POffset7.v
theories/POffset4.v
theories/POffset5.v
theories/POffset6.v
theories/POffset8.v
theories/PropOffset.v
theories/MBytes.v
theories/PBytes.v
theories/PropBytes.v
theories/MBytes2.v
theories/PBytes2.v
theories/PBytes3.v
theories/PropBytes2.v
theories/MBytes3.v
theories/PBytes4.v
theories/PropBytes3.v
theories/MBytes4.v
theories/PBytes5.v
theories/PropBytes4.v
theories/OomSpec.v
theories/MOom.v
theories/POom.v
theories/PropOom.v
theories/WorkSpec.v
theories/MWork.v
theories/PWork.v
theories/PWork2.v
theories/PWork3.v
theories/PropWork.v
theories/MCost.v
theories/PCost.v
theories/PCost2.v
theories/PCost3.v
theories/PCost4.v
theories/MCost2.v
theories/PCost5.v
theories/PropLinear.v
theories/MCost3.v
theories/PCost6.v
theories/PCost7.v
theories/PCost8.v
theories/PropLinear2.v
