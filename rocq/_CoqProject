-Q theories Verif
theories/Tokens.v
theories/Ast.v
theories/Punctuated.v
theories/Print.v
theories/ParseUtils.v
theories/ParseType.v
theories/ParsePath.v
theories/ParseFn.v
theories/ParseItem.v
theories/Edit.v
theories/Machine.v
theories/Debug.v
theories/Lex.v
theories/Grammar.v
theories/Spelling.v
theories/Base.v
theories/Complete.v
theories/Complete2.v
theories/Complete3.v
theories/PrintSpells.v
theories/Sound.v
theories/Sound2.v
theories/Safe.v
theories/Unfold.v
theories/Stable.v
theories/Lossy.v
theories/LossyProof.v
theories/Samples.v
theories/PropRoundTrip.v
theories/PathSpec.v
theories/PathProof.v
theories/ScanSpec.v
theories/PropScan.v
theories/PropPath.v
theories/PropErr.v
theories/PropPunct.v
theories/PropShape.v
theories/PropLimits.v
theories/PropEdit.v
theories/PropAccess.v
theories/PropDebug.v
theories/Blind.v
theories/PropBlind.v
theories/PropMore.v
theories/PropDerive.v
theories/PropReject.v
theories/PropCompose.v
theories/PropCommas.v
theories/PropOpaque.v
theories/RustSyntax.v
theories/RustAny.v
theories/PropRust.v
theories/PropRustPath.v
theories/PropRustDerive.v
theories/PropSubst.v
theories/PropLists.v
theories/PropBounds.v
theories/PropShown.v
theories/PropValue.v
theories/PropAny.v
theories/PropMisread.v
theories/PropDeriveInput.v
theories/PropNested.v
theories/PropPanics.v
theories/PropDocs.v
theories/PropMissing.v
theories/PropRename.v
theories/PropDecorate.v
theories/PropViable.v
theories/PropAssemble.v
theories/Imp.v
theories/PropErase.v
theories/PropCost.v
theories/PropReads.v
theories/DebugText.v
theories/PropText.v
theories/Blame.v
theories/PropBlame.v
theories/PropInside.v
theories/PropContent.v
theories/PropBodies.v
theories/PropMessage.v
theories/PropSign.v
theories/PropFill.v
theories/PropIndep.v
theories/PropTriple.v
theories/RepoTests.v
theories/DocTests.v
theories/Audit.v
