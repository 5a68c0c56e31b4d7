(** * Compound: the sum of all simple nodes, and the nodes that own a graph. *)
From Verif Require Export NodesBasic NodesSeq NodesFilter.
Local Open Scope Z_scope.

(** Every node without an inner graph. *)
Inductive snode (P : platform) :=
| NPass
| NSum
| NSum2
| NAdd (s : opn)
| NMul (s : opn)
| NOsc (w : wave) (s : osc)
| NConst (s : csig)
| NImp (s : imp)
| NNoise (s : noise)
| NBalance (ord : list nat)
| NPan (s : pan)
| NSpeed (s : spd)
| NEval (s : evaln P)
| NMeta (s : evaln P)
| NSeq (s : seqr)
| NChoose (s : chooser)
| NArrange (s : arrange)
| NPoints (s : points)
| NPSynth (s : psynth)
| NMSynth (s : msynth)
| NSampler (s : sampler)
| NPSampler (s : psampler)
| NDelayN (s : delayn)
| NDelayMs (s : delayms)
| NEnvPerc (s : envperc)
| NAdsr (s : adsr)
| NApf (s : apf)
| NOnePole (s : onepole)
| NRlpf (s : biquad)
| NRhpf (s : biquad).
Arguments NPass {P}. Arguments NSum {P}. Arguments NSum2 {P}. Arguments NAdd {P} _. Arguments NMul {P} _.
Arguments NOsc {P} _ _. Arguments NConst {P} _. Arguments NImp {P} _. Arguments NNoise {P} _.
Arguments NBalance {P} _. Arguments NPan {P} _. Arguments NSpeed {P} _. Arguments NEval {P} _.
Arguments NMeta {P} _. Arguments NSeq {P} _. Arguments NChoose {P} _. Arguments NArrange {P} _.
Arguments NPoints {P} _. Arguments NPSynth {P} _. Arguments NMSynth {P} _. Arguments NSampler {P} _.
Arguments NPSampler {P} _. Arguments NDelayN {P} _. Arguments NDelayMs {P} _. Arguments NEnvPerc {P} _.
Arguments NAdsr {P} _. Arguments NApf {P} _. Arguments NOnePole {P} _. Arguments NRlpf {P} _.
Arguments NRhpf {P} _.

(** Dynamic dispatch of [BoxedNodeSend] (/repo/rs/synth/src/node/boxed.rs:78-85). *)
Definition wrap {S N} (c : S -> N) (r : res (S * list sig)) : res (N * list sig) :=
  match r with Ok (s, o) => Ok (c s, o) | Panic => Panic end.
Definition wrapm {S N} (c : S -> N) (r : res S) : res N :=
  match r with Ok s => Ok (c s) | Panic => Panic end.

Definition sproc (P : platform) (n : snode P) (ins : inmap) (out : list sig) : res (snode P * list sig) :=
  match n with
  | NPass => Ok (NPass, pass_out ins out)
  | NSum => Ok (NSum, sum_proc P ins out)
  | NSum2 => match sum2_proc P ins out with Ok o => Ok (NSum2, o) | Panic => Panic end
  | NAdd s => wrap NAdd (op_proc fadd s ins out)
  | NMul s => wrap NMul (op_proc fmul s ins out)
  | NOsc w s => wrap (NOsc w) (osc_proc P w s ins out)
  | NConst s => wrap NConst (csig_proc P s ins out)
  | NImp s => wrap NImp (imp_proc P s ins out)
  | NNoise s => wrap NNoise (noise_proc P s ins out)
  | NBalance s => wrap NBalance (balance_proc s ins out)
  | NPan s => wrap NPan (pan_proc s ins out)
  | NSpeed s => wrap NSpeed (spd_proc P s ins out)
  | NEval s => wrap NEval (eval_proc P s ins out)
  | NMeta s => wrap NMeta (meta_proc P s ins out)
  | NSeq s => wrap NSeq (seq_proc P s ins out)
  | NChoose s => wrap NChoose (choose_proc P s ins out)
  | NArrange s => wrap NArrange (arrange_proc s ins out)
  | NPoints s => wrap NPoints (points_proc P s ins out)
  | NPSynth s => wrap NPSynth (psynth_proc P s ins out)
  | NMSynth s => wrap NMSynth (msynth_proc P s ins out)
  | NSampler s => wrap NSampler (sampler_proc P s ins out)
  | NPSampler s => wrap NPSampler (psampler_proc P s ins out)
  | NDelayN s => wrap NDelayN (delayn_proc s ins out)
  | NDelayMs s => wrap NDelayMs (delayms_proc P s ins out)
  | NEnvPerc s => wrap NEnvPerc (envperc_proc P s ins out)
  | NAdsr s => wrap NAdsr (adsr_proc P s ins out)
  | NApf s => wrap NApf (apf_proc P s ins out)
  | NOnePole s => wrap NOnePole (onepole_proc P s ins out)
  | NRlpf s => wrap NRlpf (rlpf_proc P s ins out)
  | NRhpf s => wrap NRhpf (rhpf_proc P s ins out)
  end.

(** [Pass], [Sum] and [Sum2] ignore every message (pass.rs:54, sum.rs:68,92); balance.rs:33-42. *)
Definition smsg (P : platform) (n : snode P) (m : msg) : res (snode P) :=
  match n with
  | NPass => Ok NPass
  | NSum => Ok NSum
  | NSum2 => Ok NSum2
  | NAdd s => wrapm NAdd (op_msg s m)
  | NMul s => wrapm NMul (op_msg s m)
  | NOsc w s => wrapm (NOsc w) (osc_msg s m)
  | NConst s => wrapm NConst (csig_msg s m)
  | NImp s => wrapm NImp (imp_msg P s m)
  | NNoise s => wrapm NNoise (noise_msg s m)
  | NBalance s => wrapm NBalance (ord_msg s m)
  | NPan s => wrapm NPan (pan_msg s m)
  | NSpeed s => wrapm NSpeed (spd_msg s m)
  | NEval s => wrapm NEval (eval_msg P s m)
  | NMeta s => wrapm NMeta (meta_msg P s m)
  | NSeq s => wrapm NSeq (seq_msg s m)
  | NChoose s => wrapm NChoose (choose_msg s m)
  | NArrange s => wrapm NArrange (arrange_msg s m)
  | NPoints s => wrapm NPoints (points_msg s m)
  | NPSynth s => wrapm NPSynth (psynth_msg s m)
  | NMSynth s => wrapm NMSynth (msynth_msg P s m)
  | NSampler s => wrapm NSampler (sampler_msg s m)
  | NPSampler s => wrapm NPSampler (psampler_msg s m)
  | NDelayN s => wrapm NDelayN (delayn_msg P s m)
  | NDelayMs s => wrapm NDelayMs (delayms_msg P s m)
  | NEnvPerc s => wrapm NEnvPerc (envperc_msg s m)
  | NAdsr s => wrapm NAdsr (adsr_msg s m)
  | NApf s => wrapm NApf (apf_msg P s m)
  | NOnePole s => wrapm NOnePole (onepole_msg P s m)
  | NRlpf s => wrapm NRlpf (bq_msg s m)
  | NRhpf s => wrapm NRhpf (bq_msg s m)
  end.

Section compound.
  Context (P : platform).
  Notation W := (snode P * list sig)%type.
  Notation graph := (sgraph W).

  (** graph.rs:84-110 [NodeData::new1], [new2], [multi_chan_node]: silent buffers. *)
  Definition mono (n : snode P) : W := (n, [silent P]).
  Definition stereo (n : snode P) : W := (n, [silent P; silent P]).

  (** [self.graph[to].node.send_msg(m)]. *)
  Definition isend (g : graph) (n : nat) (m : msg) : res graph :=
    match node_weight g n with
    | Some w => match smsg P w.1 m with
                | Ok st => set_weight g n (st, w.2)
                | Panic => Panic
                end
    | None => Panic
    end.
  (** /repo/rs/synth/src/context.rs:180-184. *)
  Definition iconnect (g : graph) (from to : nat) : res graph :=
    g' ← add_edge g from to; isend g' to (Index from).
  (** context.rs:194-205. *)
  Fixpoint ichain (g : graph) (l : list nat) : res graph :=
    match l with
    | a :: (b :: _) as l' => g' ← iconnect g a b; ichain g' l'
    | _ => Ok g
    end.
  (** An inner [AudioContext] (context.rs:103-121, 2 channels): node 0 is the
      destination, node 1 the context's input, node 2 the compound's own input node,
      then [ws].  The source interleaves adding nodes and connecting them; the indices
      depend only on the order of the additions and the edges only on the order of the
      connections, so all nodes are added first here. *)
  Definition build (ws : list W) (chains : list (list nat)) : res graph :=
    foldM ichain
      (SGraph (Some <$> stereo NSum2 :: stereo NPass :: mono NPass :: ws) [] []) chains.

  (** Which inner nodes a message is forwarded to. *)
  Inductive ckind :=
  | KDrum (env : nat)                      (* bd.rs:68-72, hh.rs:61-70, sn.rs:77-86 *)
  | KSynth (env : nat)                     (* sawsynth.rs:62-77, squsynth.rs, trisynth.rs *)
  | KPlate (wet1 dry1 wet2 dry2 : nat).    (* plate.rs:170-194 *)
  Record compound := Compound { cp_graph : graph; cp_ord : list nat; cp_kind : ckind }.

  (** compound/mod.rs:26-32, plate.rs:161-167. *)
  Definition run_inner (s : compound) (ins : inmap) (out : list sig) : res (compound * list sig) :=
    bs ← in_ord ins (cp_ord s) 0; b ← chan bs 0;
    w ← unwrap (node_weight (cp_graph s) 2);
    bs2 ← put0 w.2 b;
    g1 ← set_weight (cp_graph s) 2 (w.1, bs2);
    g2 ← process (sproc P) (p_inner P) g1 0;
    d ← unwrap (node_weight g2 0);
    l ← chan d.2 0; r ← chan d.2 1;
    out' ← put01 out l r;
    mret (Compound g2 (cp_ord s) (cp_kind s), out').
  Definition compound_proc (s : compound) (ins : inmap) (out : list sig) : res (compound * list sig) :=
    match cp_kind s with
    | KPlate _ _ _ _ => run_inner s ins out
    | _ => match ins with [_] => run_inner s ins out | _ => Ok (s, out) end
    end.
  (** The drums and synths have no [ResetOrder] arm; the plate has one. *)
  Definition compound_msg (s : compound) (m : msg) : res compound :=
    match cp_kind s, m with
    | KDrum e, SetToNumber 0 v =>
        g ← isend (cp_graph s) e (SetToNumber 1 v); mret (Compound g (cp_ord s) (cp_kind s))
    | KSynth e, SetToNumber 0 v =>
        g ← isend (cp_graph s) e (SetToNumber 0 v); mret (Compound g (cp_ord s) (cp_kind s))
    | KSynth e, SetToNumber 1 v =>
        g ← isend (cp_graph s) e (SetToNumber 1 v); mret (Compound g (cp_ord s) (cp_kind s))
    | KPlate w1 d1 w2 d2, SetToNumber 0 v =>
        g1 ← isend (cp_graph s) w1 (SetToNumber 0 v);
        g2 ← isend g1 w2 (SetToNumber 0 v);
        g3 ← isend g2 d1 (SetToNumber 0 (fsub f1 v));
        g4 ← isend g3 d2 (SetToNumber 0 (fsub f1 v));
        mret (Compound g4 (cp_ord s) (cp_kind s))
    | KPlate _ _ _ _, _ => o ← ord_msg (cp_ord s) m; mret (Compound (cp_graph s) o (cp_kind s))
    | _, _ => o ← ord_msg_keep (cp_ord s) m; mret (Compound (cp_graph s) o (cp_kind s))
    end.

  Definition dec (m : N) (e : Z) : f32 := f_of_dec false m e.
  Definition n_env (a d : f32) : snode P := NEnvPerc (envperc_new a d 44100).
  Definition n_mul (v : f32) : snode P := NMul (Opn v []).
  Definition n_add (v : f32) : snode P := NAdd (Opn v []).
  (** [SinOsc::new()], sin_osc.rs:11-20; likewise saw_osc.rs:14-24, squ_osc.rs and tri_osc.rs. *)
  Definition n_osc (w : wave) : snode P := NOsc w (osc_new f1 44100).
  Definition n_noise : snode P := NNoise (Noise 42 0 []).

  (** bd.rs:34-53. *)
  Definition bd_new (decay : f32) : res compound :=
    g ← build [mono (n_env (dec 3 (-3)) decay);                 (* 3 env_amp *)
               mono (n_env (dec 1 (-2)) (dec 1 (-1)));           (* 4 env_pitch *)
               stereo (n_mul (dec 50 0));                        (* 5 mul *)
               stereo (n_add (dec 60 0));                        (* 6 add *)
               mono (n_osc WSin);                                (* 7 sin *)
               mono (n_mul f0)]                                  (* 8 sin_amp *)
              [[7; 8; 0]; [2; 3; 8]; [2; 4; 5; 6; 7]]%nat;
    mret (Compound g [] (KDrum 3)).
  (** hh.rs:27-47. *)
  Definition hh_new (decay : f32) : res compound :=
    g ← build [mono n_noise;                                     (* 3 source *)
               mono (NRhpf (bq_new (dec 15000 0) f1 44100 [] f1 (dec 120 0))); (* 4 filter *)
               stereo (n_mul f0);                                (* 5 amp *)
               mono (n_env (dec 3 (-3)) decay)]                  (* 6 env_amp *)
              [[3; 4; 5; 0]; [2; 6; 5]]%nat;
    mret (Compound g [] (KDrum 6)).
  (** sn.rs:35-63. *)
  Definition sn_new (decay : f32) : res compound :=
    g ← build [mono (n_env (dec 1 (-3)) decay);                  (* 3 env_amp *)
               mono (n_env (dec 1 (-3)) (dec 1 (-1)));            (* 4 env_pitch *)
               stereo (n_mul (dec 55 0));                         (* 5 mul *)
               stereo (n_add (dec 60 0));                         (* 6 add *)
               mono (n_osc WSin);                                 (* 7 sin *)
               stereo (n_add f0);                                 (* 8 mix *)
               stereo (n_add f0);                                 (* 9 filter *)
               stereo (n_mul f0);                                 (* 10 amp *)
               mono n_noise;                                      (* 11 noise *)
               stereo (n_mul (dec 3 (-1)))]                       (* 12 noise_amp *)
              [[7; 8; 9; 10; 0]; [11; 12; 8]; [2; 3; 10]; [2; 4; 5; 6; 7]]%nat;
    mret (Compound g [] (KDrum 3)).
  (** sawsynth.rs:27-48, squsynth.rs:20-41, trisynth.rs:20-41. *)
  Definition synth_new (w : wave) (attack decay : f32) : res compound :=
    g ← build [mono (n_osc w);                                    (* 3 source *)
               stereo (n_mul f0);                                 (* 4 amp *)
               mono (n_env attack decay);                         (* 5 env_amp *)
               stereo (n_mul (dec 26163 (-2)))]                   (* 6 pitch *)
              [[3; 4; 0]; [2; 5; 4]; [2; 6; 3]]%nat;
    mret (Compound g [] (KSynth 5)).

  Definition n_apf (delay gain : f32) : res W :=
    s ← apf_new P 44100 delay gain; mret (mono (NApf s)).
  Definition n_dn (n : Z) : res W := s ← delayn_new n; mret (mono (NDelayN s)).
  Definition n_pole (rate : f32) : W := mono (NOnePole (onepole_new P rate)).
  (** plate.rs:20-156. *)
  Definition plate_nodes (mix : f32) : res (list W) :=
    mapR id
      [ Ok (n_pole (dec 7 (-1)));                                 (* 3 wet1 *)
        (s ← delayms_new P 44100 (dec 50 0) 2; mret (mono (NDelayMs s))); (* 4 wet2 *)
        n_apf (dec 4771 (-3)) (dec 75 (-2));                      (* 5 wet3 *)
        n_apf (dec 3595 (-3)) (dec 75 (-2));                      (* 6 wet4 *)
        n_apf (dec 1272 (-2)) (dec 625 (-3));                     (* 7 wet5 *)
        n_apf (dec 9307 (-3)) (dec 625 (-3));                     (* 8 wet6 *)
        Ok (mono (n_add f0));                                     (* 9 wet7 *)
        n_apf (dec 100 0) (dec 7 (-1));                           (* 10 wet8 *)
        Ok (mono (NOsc WSin (osc_new (dec 1 (-1)) 44100)));       (* 11 mod1 *)
        Ok (mono (n_mul (dec 55 (-1))));                          (* 12 mod2 *)
        Ok (mono (n_add (dec 295 (-1))));                         (* 13 mod3 *)
        n_dn 394;                                                 (* 14 aa *)
        n_dn 2800;                                                (* 15 ab *)
        n_dn 1204;                                                (* 16 ac *)
        n_dn 2000;                                                (* 17 ba[0] *)
        Ok (n_pole (dec 1 (-1)));                                 (* 18 ba[1] *)
        n_apf (dec 7596 (-3)) fhalf;                              (* 19 ba[2] *)
        n_apf (dec 3578 (-2)) fhalf;                              (* 20 bb *)
        n_apf (dec 100 0) fhalf;                                  (* 21 bc *)
        n_dn 179;                                                 (* 22 ca *)
        n_dn 2679;                                                (* 23 cb *)
        n_dn 3500;                                                (* 24 cc1 *)
        Ok (mono (n_mul (dec 3 (-1))));                           (* 25 cc2 *)
        n_apf (dec 30 0) (dec 7 (-1));                            (* 26 da1 *)
        n_dn 522;                                                 (* 27 da2 *)
        n_dn 2400;                                                (* 28 db *)
        n_dn 2400;                                                (* 29 dc *)
        Ok (n_pole (dec 1 (-1)));                                 (* 30 ea1 *)
        n_apf (dec 62 (-1)) (dec 7 (-1));                         (* 31 ea2 *)
        n_apf (dec 3492 (-2)) (dec 7 (-1));                       (* 32 eb *)
        n_apf (dec 204 (-1)) (dec 7 (-1));                        (* 33 fa1 *)
        n_dn 1578;                                                (* 34 fa2 *)
        n_dn 2378;                                                (* 35 fb *)
        n_dn 2500;                                                (* 36 fb1 *)
        Ok (mono (n_mul (dec 3 (-1))));                           (* 37 fb2 *)
        Ok (mono NSum);                                           (* 38 left_subtract *)
        Ok (mono (n_mul fm1));                                    (* 39 left_subtract2 *)
        Ok (mono NSum);                                           (* 40 left *)
        Ok (mono (n_mul mix));                                    (* 41 leftwet *)
        Ok (mono NSum);                                           (* 42 leftmix *)
        Ok (mono (n_mul (fsub f1 mix)));                          (* 43 leftdrymix *)
        Ok (mono NSum);                                           (* 44 right_subtract *)
        Ok (mono (n_mul fm1));                                    (* 45 right_subtract2 *)
        Ok (mono NSum);                                           (* 46 right *)
        Ok (mono (n_mul mix));                                    (* 47 rightwet *)
        Ok (mono NSum);                                           (* 48 rightmix *)
        Ok (mono (n_mul (fsub f1 mix)));                          (* 49 rightdry *)
        Ok (stereo (NBalance []))].                               (* 50 balance *)
  Definition plate_new (mix : f32) : res compound :=
    ws ← plate_nodes mix;
    g ← build ws
          [[2; 3; 4; 5; 6; 7; 8; 9; 10]; [11; 12; 13; 10]; [10; 14]; [14; 15]; [15; 16]; [17; 18; 19];
           [16; 17]; [19; 20]; [20; 21]; [11; 12; 13; 21]; [21; 22]; [22; 23]; [23; 24; 25];
           [25; 26; 27]; [27; 28]; [28; 29]; [29; 30; 31]; [31; 32]; [32; 33; 34]; [34; 35];
           [35; 36; 37; 9];
           [20; 38]; [28; 38]; [31; 38]; [34; 38]; [38; 39];
           [14; 40]; [15; 40]; [23; 40]; [39; 40]; [2; 43; 42]; [40; 41; 42];
           [32; 44]; [15; 44]; [19; 44]; [22; 44]; [44; 45];
           [27; 46]; [28; 46]; [35; 46]; [45; 46]; [2; 49; 48]; [46; 47; 48];
           [42; 50]; [48; 50]; [50; 0]]%nat;
    mret (Compound g [] (KPlate 41 43 47 49)).

  (** All nodes. *)
  Inductive gnode := Simple (n : snode P) | Comp (c : compound).
  Definition gproc (n : gnode) (ins : inmap) (out : list sig) : res (gnode * list sig) :=
    match n with
    | Simple s => wrap Simple (sproc P s ins out)
    | Comp c => wrap Comp (compound_proc c ins out)
    end.
  Definition gmsg (n : gnode) (m : msg) : res gnode :=
    match n with
    | Simple s => wrapm Simple (smsg P s m)
    | Comp c => wrapm Comp (compound_msg c m)
    end.
End compound.
