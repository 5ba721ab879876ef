-Q theories Verif
theories/Base.v
theories/Numerals.v
theories/Money.v
theories/Alist.v
theories/Comment.v
theories/Txn.v
theories/Peg.v
theories/Grammar.v
theories/Dates.v
theories/Expr.v
theories/Filter.v
theories/Tokens.v
theories/Price.v
theories/Ledger.v
theories/Reports.v
theories/App.v
theories/SpecUtf8.v
theories/BaseFacts.v
theories/Spec.v
theories/SpecTxn.v
theories/MoneyFacts.v
theories/NumFacts.v
theories/DisplayFacts.v
theories/TxnFacts.v
theories/TxnFacts2.v
theories/PropMoney.v
theories/PropDisplay.v
theories/PropTxn.v
theories/PegFacts.v
theories/SpecText.v
theories/LiteralFacts.v
theories/PropLiteral.v
theories/TokenFacts.v
theories/SpecList.v
theories/AlistFacts.v
theories/PropAlist.v
theories/JournalFacts.v
theories/SpecLedger.v
theories/LedgerFacts.v
theories/LedgerFacts2.v
theories/LedgerFacts3.v
theories/LedgerFacts4.v
theories/PropLedger.v
theories/SpecPrice.v
theories/PriceFacts.v
theories/PropPrice.v
theories/PropTags.v
theories/EvalFacts.v
theories/SpecQuery.v
theories/PropQuery.v
theories/SpecExpr.v
theories/ExprFacts.v
theories/PropExpr.v
theories/SpecTokens.v
theories/SimFacts.v
theories/JournalSim.v
theories/TokenFacts2.v
theories/IncludeFacts.v
theories/InlineFacts.v
theories/SpecDates.v
theories/DateFacts.v
theories/PropDates.v
theories/PostingFacts.v
theories/PropTokens.v
theories/SpecReports.v
theories/ReportFacts.v
theories/ReportFacts2.v
theories/ReportFacts3.v
theories/PropReports.v
theories/SpecApp.v
theories/PropApp.v
theories/SpecJournal.v
theories/JournalRead.v
theories/JournalHeader.v
theories/JournalPrice.v
theories/JournalItems.v
theories/JournalLoop.v
theories/PropJournal.v
theories/PropTagQuery.v
theories/SpecWords.v
theories/PropRuleQuery.v
theories/SpecLayout.v
theories/PropLayout.v
theories/PropPriceList.v
theories/PropNames.v
theories/SpecBook.v
theories/BookFacts.v
theories/PropBook.v
theories/PropBook2.v
theories/SpecErrors.v
theories/Message.v
theories/PlaceFacts.v
theories/MessageFacts.v
theories/PropErrors.v
theories/Diag.v
theories/SpecDiag.v
theories/DiagFacts.v
theories/PropDiag.v
theories/PropEntry.v
theories/SpecBad.v
theories/JournalBad.v
theories/PropBad.v
theories/SpecAsk.v
theories/PropAsk.v
theories/SpecSame.v
theories/SameFacts.v
theories/SameRead.v
theories/SameFacts2.v
theories/SameExchange.v
theories/SameFacts3.v
theories/SameRules.v
theories/SameFacts4.v
theories/SameFacts5.v
theories/PropSame.v
theories/SpecWorth.v
theories/WorthFacts.v
theories/PropWorth.v
theories/SpecExchange.v
theories/ExchangeFacts.v
theories/PropExchange.v
theories/Colour.v
theories/SpecColour.v
theories/PropColour.v
theories/SpecAssert.v
theories/AssertFacts.v
theories/PropAssert.v
theories/SpecRules.v
theories/ShownFacts.v
theories/RuleFacts.v
theories/RuleFacts2.v
theories/PropRules.v
theories/SpecFind.v
theories/FindFacts.v
theories/PropFind.v
theories/Memo.v
theories/PropMemo.v
theories/SpecAgree.v
theories/PropAgree.v
theories/Conformance.v
theories/SpecLists.v
theories/PropLists.v
theories/SpecSplit.v
theories/SplitFacts.v
theories/PropSplit.v
theories/SpecJoin.v
theories/PropJoin.v
theories/SpecRemark.v
theories/RemarkFacts.v
theories/PropRemark.v
theories/SpecSpell.v
theories/SpellFacts.v
theories/PropSpell.v
theories/SpecCombine.v
theories/CombineFacts.v
theories/PropCombine.v
theories/SpecCondition.v
theories/PropCondition.v
theories/SpecPeriod.v
theories/PropPeriod.v
theories/SpecTree.v
theories/PropTree.v
theories/SpecMeans.v
theories/MeansFacts.v
theories/MeansFacts2.v
theories/MeansFacts3.v
theories/PropMeans.v
theories/SpecScale.v
theories/PropScale.v
theories/SpecScale2.v
theories/PropScale2.v
theories/Count.v
theories/SpecCount.v
theories/PropCount.v
theories/SpecExchange2.v
theories/PropExchange2.v
theories/PropAssert2.v
theories/SpecRename.v
theories/PropRename.v
theories/SpecCarry.v
theories/PropCarry.v
theories/SpecLeave.v
theories/PropLeave.v
theories/SpecJoin2.v
theories/PropJoin2.v
theories/PropHang.v
theories/SpecReverse.v
theories/PropReverse.v
theories/SpecWays.v
theories/PropWays.v
theories/SpecChecks.v
theories/PropChecks.v
theories/PropFindTags.v
theories/SpecReal.v
theories/PropReal.v
theories/SpecUnchecked.v
theories/PropUnchecked.v
theories/SpecNoEffect.v
theories/PropNoEffect.v
theories/SpecSingle.v
theories/PropSingle.v
theories/SpecNews.v
theories/PropNews.v
theories/SpecDay.v
theories/DayFacts.v
theories/PropDay.v
theories/PropFiles.v
