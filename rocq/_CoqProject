-Q theories Verif
theories/Base.v
theories/Trait.v
theories/BTree.v
theories/GapBuffer.v
theories/LenFinder.v
theories/Rope.v
theories/OrdMap.v
theories/RangeNumMap.v
theories/GapBufferP.v
theories/GapPanic.v
theories/Inv.v
theories/Seq.v
theories/Struct.v
theories/Links.v
theories/Law.v
theories/Ruc.v
theories/Rd.v
theories/Split.v
theories/Edit.v
theories/Nav.v
theories/Repl.v
theories/Insert.v
theories/Lack.v
theories/Remove.v
theories/Inst.v
theories/Path.v
theories/Spec.v
theories/Ops.v
theories/Ops2.v
theories/Query.v
theories/Visit.v
theories/Shift.v
theories/UpdLeaf.v
theories/Upd.v
theories/Prune.v
theories/Drain1.v
theories/Drain2.v
theories/Drain3.v
theories/Drain4.v
theories/Drain5.v
theories/OrdP.v
theories/OrdM.v
theories/Many.v
theories/Ulbs.v
theories/ByQuery.v
theories/RopeFl.v
theories/Rle.v
theories/Refuted.v
theories/Demo.v
theories/Demo2.v
theories/Facts.v
theories/Demo3.v
theories/Flat.v
theories/Pos.v
theories/Thick.v
theories/Thick2.v
theories/RopeP.v
theories/Hist.v
theories/Demo4.v
theories/Demo5.v
theories/Filter.v
theories/FromIter.v
theories/Ranges.v
theories/Poke.v
theories/Ucf.v
theories/Demo6.v
theories/Demo7.v
theories/Demo8.v
theories/CheckP.v
theories/Demo9.v
theories/Demo10.v
theories/Rnm.v
theories/Demo11.v
theories/Frame.v
theories/Hist2.v
theories/Thick3.v
theories/Steps.v
theories/Demo12.v
theories/Demo19.v
theories/Demo20.v
theories/RangesS.v
theories/Demo21.v
theories/Lazy.v
theories/Demo13.v
theories/PropTree.v
theories/PropQuery.v
theories/PropFilter.v
theories/PropLazy.v
theories/PropUpdate.v
theories/PropDrain.v
theories/PropBulk.v
theories/PropFrom.v
theories/PropRanges.v
theories/PropUcf.v
theories/PropRope.v
theories/PropHist.v
theories/PropHist2.v
theories/PropOrd.v
theories/PropGap.v
theories/PropRle.v
theories/PropPos.v
theories/PropCheck.v
theories/Rnm2.v
theories/Demo23.v
theories/PropRnm.v
theories/PropRefuted.v
theories/Shift2.v
theories/Utf8.v
theories/OrdE.v
theories/Slots.v
theories/Demo14.v
theories/PropMore.v
theories/Sim.v
theories/Drain6.v
theories/Demo15.v
theories/PropZero.v
theories/Stats.v
theories/Demo16.v
theories/PropStats.v
theories/PropGap2.v
theories/Dead.v
theories/Rev.v
theories/Demo17.v
theories/PropDead.v
theories/Unwind.v
theories/Demo18.v
theories/PropUnwind.v
theories/Fuzz.v
theories/PropFuzz.v
theories/PropThick.v
theories/PropSteps.v
theories/Prog.v
theories/UnitTests.v
theories/Demo22.v
theories/PropProg.v
theories/RnmProg.v
theories/UnitTests2.v
theories/NoCur.v
theories/Demo24.v
theories/Demo25.v
theories/PropProg2.v
theories/PropRnmProg.v
theories/IntWidth.v
theories/Demo26.v
theories/PropWidth.v
theories/SetProg.v
theories/Demo27.v
theories/PropSet.v
theories/Benches.v
theories/Demo28.v
theories/PropBench.v
theories/Touch.v
theories/Touch2.v
theories/Touch3.v
theories/Demo29.v
theories/Touch4.v
theories/Touch6.v
theories/Touch5.v
theories/Touch7.v
theories/Touch9.v
theories/Touch8.v
theories/Touch10.v
theories/Touch11.v
theories/Touch12.v
theories/PropTouch.v
theories/Space.v
theories/SpaceFrom.v
theories/SpaceDemo.v
theories/PropSpace.v
