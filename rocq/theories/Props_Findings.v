(** * More programs and messages that do not do what they say.

    Refutations only; the positive theorems of C04 and C12 are in Props_Live.v and Props_Calls.v. *)
From Verif Require Import Session Props_Refuted.
Local Open Scope string_scope.

(** C04: taking [speed] away leaves the sequence at the old speed: [seq] takes the speed from
    its input whenever it has one and keeps it (rs/synth/src/node/sequencer/seq.rs:69-74).
    From then on the text says one note per bar and two are played. *)
Theorem C04_stale_speed_refuted : exists p q sr bpm once twice,
  lefts (sees [CSr glicol sr; CBpm glicol bpm; submit q; play_block; play_block; play_block]) = [once; once; once] /\
  lefts (sees [CSr glicol sr; CBpm glicol bpm; submit p; play_block; submit q; play_block; play_block]) = [twice; twice; twice] /\
  once ≠ twice.
Proof.
  exists "o: speed 2.0 >> seq 60 _", "o: seq 60 _", 16%Z, (f_of_Z 480),
    [f1; f0; f0; f0; f0; f0; f0; f0], [f1; f0; f0; f0; f1; f0; f0; f0]. split_and!; [run_session|run_session|discriminate].
Qed.

(** C12: a number sent to a parameter an [arrange] has makes the audio thread panic, whatever the
    number is (rs/synth/src/node/sequencer/arrange.rs:86-94: [i as usize - self.events.len()]). *)
Theorem C12_arrange_refuted : exists p, exists block, sees [submit p; play_block; CMsg glicol c64 "o,0,1,2"; play_block] = [Quiet; Played block; Panicked].
Proof.
  eexists "~a: sig 1
~b: sig 2
o: arrange ~a 1 ~b 1", _. run_session.
Qed.

(** C12: the position of the parameter is a [u8] with 0 as the value of everything else: position
    256 (rs/main/src/lib.rs:88-89), or a position that is no number, sets parameter 0, while position 1, which [sig] does not have
    either, is ignored. *)
Theorem C12_parameter_refuted : exists p,
  sees [submit p; CMsg glicol c64 "o,0,256,5"; play_block] = [Quiet; Quiet; level 5] /\
  sees [submit p; CMsg glicol c64 "o,0,freq,5"; play_block] = [Quiet; Quiet; level 5] /\
  sees [submit p; CMsg glicol c64 "o,0,1,5"; play_block] = [Quiet; Quiet; level 1].
Proof. exists "o: sig 1". split_and!; run_session. Qed.
(** The same for the position in the chain: what is no number addresses the first component. *)
Theorem C12_chain_position_refuted : exists p,
  sees [submit p; CMsg glicol c64 "o,sig,0,5"; play_block] = [Quiet; Quiet; level 10] /\
  sees [submit p; CMsg glicol c64 "o,-1,0,5"; play_block] = [Quiet; Quiet; level 10].
Proof. exists "o: sig 1 >> mul 2". split; run_session. Qed.
