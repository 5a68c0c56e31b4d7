(** * General claims that the code does not meet: C04, C05, C06, C11, C13, C14, C20, C62.
    Each theorem gives programs, accepted by the parser of the model, whose observable
    behaviour contradicts the claim.  The parts that do hold are the [_partial] theorems of
    Props_Update.v, Props_Inputs.v and Props_Graph.v.  See DESIGN.md, Findings. *)
From Verif Require Import Session.
Local Open Scope nat_scope.
Local Open Scope string_scope.

(** ** C04: an accepted update may leave another program playing *)

(** Reordering two components: the second program plays 3 on a fresh engine, and 4 (as the
    first one) when it replaces the first.  None of the nodes involved has any memory. *)
Theorem C04_reordering_refuted : exists p q,
  sees [submit q; play_block] = [Quiet; level 3] /\
  sees [submit p; play_block; submit q; play_block; play_block] = [Quiet; level 4; Quiet; level 4; level 4].
Proof. exists "o: sig 1 >> add 1 >> mul 2", "o: sig 1 >> mul 2 >> add 1". split; run_session. Qed.

(** Repeating a component and removing the repetition leaves the old node in place of the
    new one: the program says 2, the engine plays 1. *)
Theorem C04_repetition_refuted : exists p q r,
  sees [submit r; play_block] = [Quiet; level 2] /\
  sees [submit p; submit q; submit r; play_block] = [Quiet; Quiet; Quiet; level 1].
Proof. exists "o: sig 1 >> sig 1", "o: sig 1", "o: sig 2". split; run_session. Qed.

(** ** C05: an accepted program may make the engine panic *)

Theorem C05_duplicate_component_refuted : exists p q,
  sees [submit q; play_block] ≠ [Panicked] /\ length (sees [submit q; play_block]) = 2 /\
  sees [submit p; submit q] = [Quiet; Panicked].
Proof.
  exists "o: sin 440 >> mul 0.5", "o: sin 440 >> mul 0.5 >> mul 0.5 >> add 0.1".
  split_and!; [|run_session|run_session].
  intros H. apply (f_equal length) in H. revert H.
  with_strategy transparent [peg_run W W1] vm_compute. discriminate.
Qed.
Theorem C05_repetition_refuted : exists p q r,
  sees [submit r; play_block] = [Quiet; level 2] /\
  sees [submit p; submit q; submit r] = [Quiet; Quiet; Panicked].
Proof. exists "o: sig 1", "o: sig 1 >> sig 1", "o: sig 2". split; run_session. Qed.

(** Node names that the grammar has and [makenode] does not. *)
Theorem C05_unimplemented_nodes_refuted :
  Forall (fun p => sees [submit p] = [Panicked]) ["o: adc 1"; "o: reverb 0.1 0.2 0.3 0.4 0.5"].
Proof. repeat (apply Forall_cons; split; [run_session|]). constructor. Qed.

(** ** C06: submitting the running program again may change what is heard *)

Theorem C06_repeated_reference_refuted : exists p,
  sees [submit p; play_block; submit p; play_block] = [Quiet; level 4; Quiet; level 0].
Proof.
  exists "~a: sig 2
o: sig 1 >> mul ~a >> mul ~a". run_session.
Qed.

(** ** C11: the external input *)

Definition ramp : list f32 := fs [1; 2; 3; 4; 5; 6; 7; 8]%Z.
(** It works on a new engine, and after programs that do not mention it. *)
Example C11_works : sees [submit "o: sig 1"; submit "o: ~input"; play_input ramp]
  = [Quiet; Quiet; Played [ramp; replicate 8 f0]].
Proof. run_session. Qed.
(** After [reset] a block with input panics. *)
Theorem C11_after_reset_refuted : sees [play_input ramp; CReset glicol; play_input ramp]
  = [Played [replicate 8 f0; replicate 8 f0]; Quiet; Panicked].
Proof. run_session. Qed.
(** A user chain called "~input" takes the place of the input, and takes it along when it
    is removed. *)
Theorem C11_shadowed_refuted : exists p q,
  sees [submit p; play_input ramp; submit q; play_input ramp]
  = [Quiet; Played [replicate 8 f0; replicate 8 f0]; Quiet; Panicked].
Proof. exists "~input: sig 1", "o: sig 1". run_session. Qed.
(** A block without input plays the last input again. *)
Theorem C11_stale_input_refuted : exists p,
  sees [submit p; play_input ramp; play_block]
  = [Quiet; Played [ramp; replicate 8 f0]; Played [ramp; replicate 8 f0]].
Proof. exists "o: ~input". run_session. Qed.

(** ** C12: what is and is not covered by the claim *)

Example C12_session :
  sees [submit "o: sig 1 >> mul 2"; CMsg glicol c64 "o,0,0,3"; play_block; CMsg glicol c64 "p,0,0,3;o,1,0,4"; play_block]
  = [Quiet; Quiet; level 6; Quiet; level 12].
Proof. run_session. Qed.
(** A position past the end of the chain panics (audio thread). *)
Theorem C12_position_refuted : sees [submit "o: sig 1"; CMsg glicol c64 "o,1,0,3"] = [Quiet; Panicked].
Proof. run_session. Qed.

(** ** C13: a pattern that repeats a reference loses track of the others *)

(** What is heard from the left, block by block. *)
Definition lefts (l : list seen) : list (list f32) :=
  flat_map (fun s => match s with Played (b :: _) => [b] | _ => [] end) l.
(** Eight samples per cycle and three notes: ~a, ~a, ~b.  All cycles are alike, until the
    same text is submitted again: from then on the third note reads another chain. *)
Theorem C13_repeated_reference_refuted : exists p c c',
  lefts (sees [CSr glicol 4; submit p; play_block; play_block]) = [c; c] /\
  lefts (sees [CSr glicol 4; submit p; play_block; submit p; play_block]) = [c; c'] /\ c ≠ c'.
Proof.
  exists "~a: sig 2
~b: sig 60
o: seq ~a~a~b".
  eexists _, _. split_and!; [run_session|run_session|discriminate].
Qed.
(** With the references in another order the same thing does not happen: C13 depends on the
    repetition coming before the last new name. *)
Example C13_other_order : exists p c,
  lefts (sees [CSr glicol 4; submit p; play_block; play_block]) = [c; c] /\
  lefts (sees [CSr glicol 4; submit p; play_block; submit p; play_block]) = [c; c].
Proof.
  exists "~a: sig 2
~b: sig 60
o: seq ~a~b~a".
  eexists. split; run_session.
Qed.

(** ** C14: set_bpm does not reach every node that depends on the tempo *)

(** Bars of two seconds at 120 bpm, four samples per second: ~a and ~b take turns every 8
    samples, and every 4 samples at 240 bpm.  Setting the tempo after the program was
    submitted has no effect. *)
Definition turns : string := "~a: sig 2
~b: sig 3
o: arrange ~a 1 ~b 1".
Definition b23 : list f32 := fs [2; 2; 2; 2; 3; 3; 3; 3]%Z.
Definition b2 : list f32 := fs [2; 2; 2; 2; 2; 2; 2; 2]%Z.
Definition b3 : list f32 := fs [3; 3; 3; 3; 3; 3; 3; 3]%Z.
Theorem C14_arrange_ignores_tempo_refuted :
  lefts (sees [CSr glicol 4; CBpm glicol (f_of_Z 240); submit turns; play_block; play_block]) = [b23; b23] /\
  lefts (sees [CSr glicol 4; submit turns; CBpm glicol (f_of_Z 240); play_block; play_block]) = [b2; b3].
Proof. split; run_session. Qed.

(** ** C20: the output depends on the hash order *)

(** Three audible chains are summed in hash order and f32 addition is not associative. *)
Theorem C20_hash_order_refuted : exists p sh1 sh2,
  sees [submit p; CNext glicol sh1 []] ≠ sees [submit p; CNext glicol sh2 []].
Proof.
  exists "a: sig 33554432
b: sig 1
c: sig -33554432", (fun _ => id_shuffle), (fun _ => rev_shuffle).
  intros H. apply (f_equal lefts) in H. revert H.
  with_strategy transparent [peg_run W W1] vm_compute. discriminate.
Qed.

(** ** C62: accepted programs that panic when played *)

Theorem C62_accepted_programs_panic_refuted :
  Forall (fun p => sees [submit p; play_block] = [Quiet; Panicked])
    ["o: plate 0.5"; "o: delayms 1"; "o: pan 0.1"; "o: imp 88200"].
Proof. repeat (apply Forall_cons; split; [run_session|]). constructor. Qed.
