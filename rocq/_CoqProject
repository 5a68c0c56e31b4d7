-Q theories Verif
theories/Base.v
theories/Graph.v
theories/GraphProofs.v
theories/F32.v
theories/F64.v
theories/FloatR.v
theories/DoubleR.v
theories/Range.v
theories/Text.v
theories/Engine.v
theories/EngineProofs.v
theories/DiffProofs.v
theories/UpdateProofs.v
theories/HistoryProofs.v
theories/TableProofs.v
theories/ActProofs.v
theories/TameProofs.v
theories/RewireProofs.v
theories/LiveProofs.v
theories/RefProofs.v
theories/Toy.v
theories/Node.v
theories/NodesBasic.v
theories/NodesSeq.v
theories/NodesFilter.v
theories/Compound.v
theories/Ast.v
theories/Instance.v
theories/Syntax.v
theories/InstanceProofs.v
theories/Stream.v
theories/Demo.v
theories/Peg.v
theories/PegProofs.v
theories/Reads.v
theories/Grammar.v
theories/Parse.v
theories/SyntaxProofs.v
theories/SyntaxNodes.v
theories/SyntaxMore.v
theories/Props_Graph.v
theories/Props_History.v
theories/Props_Update.v
theories/Props_Delay.v
theories/Props_Signal.v
theories/Props_Filter.v
theories/Props_Seq.v
theories/Props_Range.v
theories/Props_Env.v
theories/Props_Points.v
theories/Props_Sampler.v
theories/Props_Choose.v
theories/Props_Parse.v
theories/Props_Syntax.v
theories/Props_Rhythm.v
theories/Props_Literal.v
theories/StateProofs.v
theories/BlockProofs.v
theories/InputProofs.v
theories/Session.v
theories/Props_Inputs.v
theories/Props_Refuted.v
theories/Props_Calls.v
theories/Props_External.v
theories/WeightProofs.v
theories/FullProofs.v
theories/Props_Blocks.v
theories/Wasm.v
theories/Props_Wasm.v
theories/JsRing.v
theories/Props_JsRing.v
theories/Props_PSampler.v
theories/Split.v
theories/SplitFx.v
theories/Props_Split.v
theories/Props_Voices.v
theories/Props_Compound.v
theories/SafeProofs.v
theories/SafeComp.v
theories/SafeNet.v
theories/SafeSeq.v
theories/Props_NoPanic.v
theories/Props_Live.v
theories/Bars.v
theories/Props_Song.v
theories/Props_Mixer.v
theories/Reorder.v
theories/Props_Isolation.v
theories/Props_Whole.v
theories/Props_Listen.v
theories/Rename.v
theories/Props_Elsewhere.v
theories/Props_Replay.v
theories/Props_Findings.v
theories/Props_Score.v
theories/Props_Mixdown.v
theories/Props_Blocksize.v
theories/Props_Settings.v
theories/Props_Timing.v
