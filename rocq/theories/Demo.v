(** * Demo: one concrete platform, used by examples and counterexamples only.

    Blocks of 8 samples, a 64-bit release build.  The libm functions are crude
    polynomials, the noise is a fixed sequence: examples do not depend on them. *)
From Verif Require Export Stream.
Local Open Scope Z_scope.

Definition demo : platform := {|
  p_blk := 8;
  p_cfg := Cfg false (2 ^ 64 - 1);
  p_sin := fun x => x;
  p_cos := fun x => fsub f1 (fmul fhalf (fmul x x));
  p_exp := fun x => fadd (fadd f1 x) (fmul x x);
  p_pow2 := fun x => fadd f1 x;
  p_noise := fun seed n => ddiv (d_of_Z ((seed + n * 7) mod 11 - 5)) (d_of_Z 6);
  p_inner := fun _ => id_shuffle;
  p_ext := unit;
  p_eval_new := fun _ => tt;
  p_eval_code := fun x _ => Ok x;
  p_eval_step := fun x i _ => Ok (x, default f0 i);
  p_meta_new := fun _ => tt;
  p_meta_code := fun x _ => x;
  p_meta_run := fun x _ => (x, None) |}.
(** The same with other block sizes, and a debug build. *)
Definition with_blk (P : platform) (n : nat) : platform := {|
  p_blk := n; p_cfg := p_cfg P; p_sin := p_sin P; p_cos := p_cos P; p_exp := p_exp P; p_pow2 := p_pow2 P;
  p_noise := p_noise P; p_inner := p_inner P; p_ext := p_ext P; p_eval_new := p_eval_new P;
  p_eval_code := p_eval_code P; p_eval_step := p_eval_step P; p_meta_new := p_meta_new P;
  p_meta_code := p_meta_code P; p_meta_run := p_meta_run P |}.
Definition with_cfg (P : platform) (c : cfg) : platform := {|
  p_blk := p_blk P; p_cfg := c; p_sin := p_sin P; p_cos := p_cos P; p_exp := p_exp P; p_pow2 := p_pow2 P;
  p_noise := p_noise P; p_inner := p_inner P; p_ext := p_ext P; p_eval_new := p_eval_new P;
  p_eval_code := p_eval_code P; p_eval_step := p_eval_step P; p_meta_new := p_meta_new P;
  p_meta_code := p_meta_code P; p_meta_run := p_meta_run P |}.
Definition demo_env : env sampledata :=
  {| e_samples := ∅; e_sr := 44100; e_bpm := f_of_Z 120; e_seed := 42 |}.

(** Create a node, wire it and play; [None] if anything panics or fails. *)
Definition demo_run (P : platform) (ev : env sampledata) (c : component) (ms : list msg) (ins : list inmap)
  : option (list (list sig)) :=
  match makenode_ P ev c with
  | Done ((n0, out), _) =>
      match foldM (gmsg P) n0 ms with
      | Ok n => match play P n out ins with Ok (_, outs) => Some outs | Panic => None end
      | Panic => None
      end
  | _ => None
  end.
Lemma demo_run_created P ev c ms ins outs : demo_run P ev c ms ins = Some outs ->
  exists n out n', created P ev c ms n out /\ play P n out ins = Ok (n', outs).
Proof.
  unfold demo_run, created. destruct (makenode_ P ev c) as [[[n0 out] refs]| |]; try done.
  destruct (foldM (gmsg P) n0 ms) as [n|] eqn:E1; [|done]. destruct (play P n out ins) as [[n' outs']|] eqn:E2; [|done].
  intros [= ->]. exists n, out, n'. split; [|done]. by exists n0, refs.
Qed.
(** Small integers as samples. *)
Definition fs (l : list Z) : sig := map f_of_Z l.
(** Create and wire a node and compute something from it. *)
Definition demo_val {A} (P : platform) (ev : env sampledata) (c : component) (ms : list msg)
    (f : gnode P -> list sig -> A) : option A :=
  match makenode_ P ev c with
  | Done ((n0, out), _) => match foldM (gmsg P) n0 ms with Ok n => Some (f n out) | Panic => None end
  | _ => None
  end.
Lemma demo_created {A} P ev c ms (f : gnode P -> list sig -> A) v :
  demo_val P ev c ms f = Some v -> exists n out, created P ev c ms n out /\ f n out = v.
Proof.
  unfold demo_val, created. destruct (makenode_ P ev c) as [[[n0 out] refs]| |]; try done.
  destruct (foldM (gmsg P) n0 ms) as [n|] eqn:E; [|done]. intros [= <-]. exists n, out. split; [|done]. by exists n0, refs.
Qed.
(** The output buffers of one block, and of several. *)
Definition bufs_of {P} (r : res (gnode P * list sig)) : option (list sig) :=
  match r with Ok (_, o) => Some o | Panic => None end.
Definition lanes_of {P} (r : res (gnode P * list (list sig))) : option (sig * sig) :=
  match r with Ok (_, o) => Some (lane 0 o, lane 1 o) | Panic => None end.
