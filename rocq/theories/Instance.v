(** * Instance: the engine of /repo/rs/main over the nodes of /repo/rs/synth.

    Feature configuration: [use-samples] and [use-meta] on, [bela] off, as in the
    wasm build (/repo/rs/wasm/Cargo.toml). *)
From Verif Require Export Ast Compound.
Local Open Scope Z_scope.

Arguments Simple {P} _.
Arguments Comp {P} _.

Section makenode.
  Context (P : platform).
  Notation W := (gnode P * list sig)%type.
  Notation made := (outcome (W * list string)).

  (** [to_boxed_nodedata(channels)], /repo/rs/synth/src/lib.rs:150-157. *)
  Definition chans_of (n : nat) : list sig := replicate n (silent P).
  Definition boxed (n : snode P) (ch : nat) (refs : list string) : made :=
    Done ((Simple n, chans_of ch), refs).
  Definition boxed_res (r : res (snode P)) (ch : nat) (refs : list string) : made :=
    match r with Ok n => boxed n ch refs | Panic => Crash end.
  Definition boxed_comp (r : res (compound P)) (ch : nat) (refs : list string) : made :=
    match r with Ok c => Done ((Comp c, chans_of ch), refs) | Panic => Crash end.
  Definition num_or (d : f32) (p : numref) : f32 := match p with Num v => v | NRef _ => d end.

  (** main/src/util.rs:51-68: the names a psampler pattern uses, in order; the first one
      without a sample is reported. *)
  Definition ev_name (v : evval) : string := match v with EvSym s => s | EvNum _ => EmptyString end.
  Fixpoint select (dict : gmap string sampledata) (names : list string)
    : outcome (gmap string sampledata) :=
    match names with
    | [] => Done ∅
    | n :: ns => match dict !! n with
                 | None => Fail (NonExistSample n)
                 | Some d => match select dict ns with
                             | Done m => Done (<[n := d]> m)
                             | r => r
                             end
                 end
    end.

  (** util.rs:357-370: distinct references in order of appearance, and their positions. *)
  Fixpoint dedup_refs (seen : list string) (l : list string) : list string :=
    match l with
    | [] => seen
    | s :: l' => dedup_refs (if bool_decide (s ∈ seen) then seen else seen ++ [s]) l'
    end.
  Definition order_of (l : list string) : gmap string nat := list_to_map (zip l (seq 0 (length l))).

  (** /repo/rs/main/src/util.rs:35-443 [makenode]. *)
  Definition makenode_ (ev : env sampledata) (c : component) : made :=
    let sr := e_sr ev in
    let bpm := e_bpm ev in
    match c with
    | CPSampler (PsEvent _) => Crash
    | CPSampler (PsPattern evs span) =>
        match select (e_samples ev) (map (fun e => ev_name e.1) evs) with
        | Done dict =>
            boxed (NPSampler (PSampler [] dict (map (fun e => (ev_name e.1, e.2)) evs) 0 span
                                       (cycle_dur bpm) sr [])) 2 []
        | Fail er => Fail er
        | Crash => Crash
        end
    | CPoints pts span loop =>
        boxed_res (l ← make_points P bpm span sr pts; mret (NPoints (Points l span bpm sr 0 loop []))) 1 []
    | CMsgSynth _ attack decay => boxed (NMSynth (MSynth [] attack decay [] sr 0 [])) 1 []
    | CPatternSynth sym _ =>
        boxed_res (evs ← ps_parse sym; mret (NPSynth (PSynth [] evs sr 0 []))) 1 []
    | CSp sym =>
        match e_samples ev !! sym with
        | None => Fail (NonExistSample sym)
        | Some d => boxed_res (s ← sampler_new P d sr; mret (NSampler s)) 2 []
        end
    | CMeta code => boxed (NMeta (Evaln (p_meta_code P (p_meta_new P sr) code) 0 [])) 1 []
    | CEval code =>
        boxed_res (x ← p_eval_code P (p_eval_new P sr) code; mret (NEval (Evaln x 0 []))) 1 []
    | CLpf (SigNum v) q => boxed (NRlpf (bq_new v q sr [] f1 (f_of_Z 120))) 1 []
    | CLpf (SigRef s) q => boxed (NRlpf (bq_new (f_of_Z 20) q sr [] f1 (f_of_Z 120))) 1 [s]
    | CLpf (SigPattern evs span) q =>
        boxed (NRlpf (bq_new (f_of_Z 20) q sr
                 (map (fun e => (match e.1 with EvNum v => v | EvSym _ => f_of_Z 100 end, e.2)) evs)
                 span bpm)) 1 []
    | CLpf (SigEvent _) _ => Crash
    | CBalance l r => boxed (NBalance []) 2 [l; r]
    | CRhpf p q => boxed (NRhpf (bq_new (num_or (f_of_Z 100) p) q 44100 [] f1 (f_of_Z 120))) 1 (numref_refs p)
    | CApfmsGain p gain =>
        boxed_res (s ← apf_new P sr (num_or f0 p) gain; mret (NApf s)) 2 (numref_refs p)
    | CEnvPerc a d => boxed (NEnvPerc (envperc_new a d sr)) 2 []
    | CAdsr a d s r => boxed (NAdsr (adsr_new a d s r sr)) 2 []
    | CTri p => boxed (NOsc WTri (osc_new (num_or f0 p) sr)) 1 (numref_refs p)
    | CSqu p => boxed (NOsc WSqu (osc_new (num_or f0 p) sr)) 1 (numref_refs p)
    | CSaw p => boxed (NOsc WSaw (osc_new (num_or f0 p) sr)) 1 (numref_refs p)
    | CSin p => boxed (NOsc WSin (osc_new (num_or f0 p) sr)) 1 (numref_refs p)
    | CPlate mix => boxed_comp (plate_new P mix) 2 []
    | CImp p => boxed (NImp (imp_new P sr (num_or f0 p))) 1 (numref_refs p)
    | CMul p => boxed (NMul (Opn (num_or f0 p) [])) 2 (numref_refs p)
    | CPan p => boxed (NPan (Pan (num_or f0 p) [])) 2 (numref_refs p)
    | CDelayn p =>
        boxed_res (s ← delayn_new (match p with Usz n => n | URef _ => 0 end); mret (NDelayN s)) 2 (usizeref_refs p)
    | CDelayms p =>
        boxed_res (s ← delayms_new P sr (num_or (f_of_Z 2000) p) 2; mret (NDelayMs s)) 2 (numref_refs p)
    | CNoise seed => boxed (NNoise (Noise seed 0 [])) 1 []
    | CSpeed v => boxed (NSpeed (Spd v [])) 1 []
    | COnepole p => boxed (NOnePole (onepole_new P (num_or f0 p))) 1 (numref_refs p)
    | CAdd p => boxed (NAdd (Opn (num_or f0 p) [])) 2 (numref_refs p)
    | CConstSig v => boxed (NConst (CSig v [])) 1 []
    | CBd p => boxed_comp (bd_new P (num_or f0 p)) 2 (numref_refs p)
    | CHh p => boxed_comp (hh_new P (num_or f0 p)) 2 (numref_refs p)
    | CSn p => boxed_comp (sn_new P (num_or f0 p)) 2 (numref_refs p)
    | CSawSynth a d => boxed_comp (synth_new P WSaw a d) 2 []
    | CSquSynth a d => boxed_comp (synth_new P WSqu a d) 2 []
    | CTriSynth a d => boxed_comp (synth_new P WTri a d) 2 []
    | CGet r => boxed NPass 2 [r]
    | CSeq evs =>
        let refs := dedup_refs [] (component_refs (CSeq evs)) in
        boxed (NSeq (Seqr evs (order_of refs) f1 bpm sr 0 [])) 2 refs
    | CChoose l => boxed (NChoose (Choose (Noise (e_seed ev) 0 []) l)) 2 []
    | CMix l => boxed NSum2 2 l
    | CArrange evs => boxed (NArrange (Arrange evs bpm sr 0 [])) 2 (component_refs (CArrange evs))
    | CReverb _ _ _ _ _ | CExpr _ | CAdc _ => Crash
    end.

  (** [copy_from_slice] panics when the lengths differ. *)
  Definition copy_slice_ (b s : sig) : res sig :=
    if Nat.eqb (length b) (length s) then Ok s else Panic.

  (** The language for an arbitrary parser. *)
  Definition glang (get : string -> outcome (gmap string (list component))) : lang :=
    {| comp := component; node := gnode P; buf := sig; slice := sig; sample := sampledata;
       text := string; comp_eqb := component_eqb; all_refs := component_refs;
       makenode := makenode_; nmsg := gmsg P; nproc := gproc P; parse := get;
       dest_w := (Simple NSum2, chans_of 2); pass_w := (Simple NPass, chans_of 2);
       copy_slice := copy_slice_ |}.
End makenode.
