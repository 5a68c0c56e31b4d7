(** * Parse: [get_ast], from the text of a program to its chains.

    /repo/rs/parser/src/lib.rs:16-109 and nodes.rs.  [Err] of any kind is [Fail
    ParsingError] (main/src/error.rs wraps the pest error; positions and messages are
    dropped); a panic is [Crash].  Not modelled: the text of error messages, and
    fasteval's [ez_eval] used for the length of a point list (nodes.rs:221), which is the
    parameter [math]; [Panic] is its error case, on which the code calls [unwrap]. *)
From Verif Require Export Grammar Instance.
Local Open Scope Z_scope.

Definition bind {A B} (o : outcome A) (k : A -> outcome B) : outcome B :=
  match o with Done a => k a | Fail e => Fail e | Crash => Crash end.
Local Notation "'let?' x := o 'in' k" := (bind o (fun x => k)) (at level 200, x pattern, right associativity).
Definition err {A} : outcome A := Fail ParsingError.
Definition of_option {A} (o : option A) : outcome A := match o with Some a => Done a | None => err end.

(** [collect::<Result<Vec<_>, _>>]: the first error ends the iteration. *)
Fixpoint collect {A B} (f : A -> outcome B) (l : list A) : outcome (list B) :=
  match l with
  | [] => Done []
  | a :: l' => let? b := f a in let? bs := collect f l' in Done (b :: bs)
  end.

(** [Rule]'s derived equality. *)
Global Instance rule_eq_dec : EqDecision rule.
Proof. solve_decision. Defined.
Definition is_rule (r : rule) (p : tree) : bool := bool_decide (p_rule p = r).

Section parse.
  Context (c : cfg) (math : string -> res f32).

  (** [str::parse::<u32>]. *)
  Definition parse_u32 (s : string) : option Z :=
    match parse_uint 4294967295 s with Some n => Some (Z.of_N n) | None => None end.

  (** util.rs:51-62 [TryToParse::try_to_parse]; util.rs:70-80 [next_parsed]. *)
  Definition pf32 (p : tree) : outcome f32 := of_option (parse_f32 (p_text p)).
  Definition pusize (p : tree) : outcome Z := of_option (parse_usize c (p_text p)).
  Definition next (l : list tree) : outcome (tree * list tree) :=
    match l with p :: l' => Done (p, l') | [] => err end.
  Definition next_f32 (l : list tree) : outcome (f32 * list tree) :=
    let? (p, l') := next l in let? v := pf32 p in Done (v, l').

  (** nodes.rs:318-342 [NumberOrRef]. *)
  Definition p_numref (p : tree) : outcome numref :=
    match p_rule p with
    | r_number => let? v := pf32 p in Done (Num v)
    | r_reference => Done (NRef (p_text p))
    | _ => err
    end.
  Definition next_numref (l : list tree) : outcome (numref * list tree) :=
    let? (p, l') := next l in let? v := p_numref p in Done (v, l').
  (** nodes.rs:447-467 [UsizeOrRef]. *)
  Definition next_usizeref (l : list tree) : outcome usizeref :=
    let? (p, _) := next l in
    match p_rule p with
    | r_number => let? v := pusize p in Done (Usz v)
    | r_reference => Done (URef (p_text p))
    | _ => err
    end.

  (** nodes.rs:264-293: the offset of a point. *)
  Definition p_offset (l : list tree) : outcome (option duration) :=
    match l with
    | [] => Done None
    | sg :: l' =>
        let sign := if String.eqb (p_text sg) "-" then fm1 else f1 in
        let? (s, _) := next l' in
        match p_rule s with
        | r_second => let? (v, _) := next_f32 (p_in s) in Done (Some (DSec (fmul sign v)))
        | r_ms => let? (v, _) := next_f32 (p_in s) in Done (Some (DMs (fmul sign v)))
        | _ => err
        end
    end.
  (** nodes.rs:245-262: the bar of a point. *)
  Definition p_bar (b : tree) : outcome f32 :=
    match p_rule b with
    | r_number => pf32 b
    | r_bar => let? (top, l1) := next_f32 (p_in b) in
               let? (bottom, _) := next_f32 l1 in
               Done (fdiv top bottom)
    | _ => err
    end.
  (** nodes.rs:235-298. *)
  Definition p_point (p : tree) : outcome (timelist * f32) :=
    let? (tm, l1) := next (p_in p) in
    let? (b, l2) := next (p_in tm) in
    let? bar := p_bar b in
    let? off := p_offset l2 in
    let? (v, _) := next_f32 l1 in
    Done (TimeList bar off, v).
  (** nodes.rs:202-307. *)
  Definition p_points (l : list tree) : outcome component :=
    let? (pts, l1) := next l in
    let? (span, looping) :=
      match l1 with
      | [] => Done (fm1, false)
      | m :: l2 =>
          match p_rule m with
          | r_math_expression =>
              match math (append "1" (p_text m)) with
              | Ok v => Done (v, match l2 with [] => false | _ => true end)
              | Panic => Crash
              end
          | r_is_looping => Done (f1, true)
          | _ => err
          end
      end in
    let? ps := collect p_point (p_in pts) in
    Done (CPoints ps span looping).

  (** nodes.rs:504-562 [Seq]: note [j] of the [m] notes of compound [i]. *)
  Definition p_element (m : nat) (i : nat) (j : nat) (el : tree) : outcome (option (f32 * usizeref)) :=
    let? (e, _) := next (p_in el) in
    let time := fadd (fdiv (f_of_Z (Z.of_nat j)) (f_of_Z (Z.of_nat m))) (f_of_Z (Z.of_nat i)) in
    match p_rule e with
    | r_integer => let? n := pusize e in Done (Some (time, Usz n))
    | r_rest => Done None
    | r_note_ref => Done (Some (time, URef (p_text e)))
    | _ => err
    end.
  Definition enumerate {A} (l : list A) : list (nat * A) := combine (seq 0 (length l)) l.
  Definition p_compound (ic : nat * tree) : outcome (list (f32 * usizeref)) :=
    let els := p_in ic.2 in
    let? es := collect (fun je => p_element (length els) ic.1 je.1 je.2) (enumerate els) in
    Done (omap (fun x => x) es).
  Definition p_seq (l : list tree) : outcome component :=
    let? (paras, _) := next l in
    let? evs := collect p_compound (enumerate (p_in paras)) in
    Done (CSeq (List.concat evs)).

  (** nodes.rs:649-685 [EventInner], nodes.rs:693-705 [Pattern]. *)
  Definition p_valtime (p : tree) : outcome (evval * f32) :=
    let? (v, l1) := next (p_in p) in
    let? value := match p_rule v with
                  | r_number => let? x := pf32 v in Done (EvNum x)
                  | r_symbol => Done (EvSym (p_text v))
                  | _ => err
                  end in
    let? (time, _) := next_f32 l1 in
    Done (value, time).
  Definition p_evinner (l : list tree) : outcome (evinner * list tree) :=
    let? (b, l1) := next l in
    let? vs := collect p_valtime (p_in b) in
    Done (vs, l1).
  Definition p_pattern (l : list tree) : outcome (evinner * f32) :=
    let? (ev, l1) := p_evinner l in
    match l1 with
    | [] => Done (ev, f1)
    | s :: _ => let? v := pf32 s in Done (ev, v)
    end.
  (** nodes.rs:729-760 [Signal], nodes.rs:897-917 [PSampler]. *)
  Definition next_signal (l : list tree) : outcome (signal * list tree) :=
    let? (p, l') := next l in
    let? s := match p_rule p with
              | r_number => let? v := pf32 p in Done (SigNum v)
              | r_reference => Done (SigRef (p_text p))
              | r_event => let? (e, _) := p_evinner (p_in p) in Done (SigEvent e)
              | r_pattern => let? (e, sp) := p_pattern (p_in p) in Done (SigPattern e sp)
              | _ => err
              end in
    Done (s, l').
  Definition p_psampler (l : list tree) : outcome component :=
    let? (p, _) := next l in
    match p_rule p with
    | r_event => let? (e, _) := p_evinner (p_in p) in Done (CPSampler (PsEvent e))
    | r_pattern => let? (e, sp) := p_pattern (p_in p) in Done (CPSampler (PsPattern e sp))
    | _ => err
    end.

  (** nodes.rs:1104-1119 [CodeBlock]: [&s[1..s.len() - 1]]; a text shorter than two bytes
      makes the slice panic (or [len - 1] overflow). *)
  Definition strip_ends (s : string) : outcome string :=
    match s with
    | String _ (String _ _ as s') => Done (substring 0 (String.length s' - 1) s')
    | _ => Crash
    end.
  Definition p_code (l : list tree) : outcome string :=
    let? (p, _) := next l in strip_ends (p_text p).

  Definition one_numref (k : numref -> component) (l : list tree) : outcome component :=
    let? (v, _) := next_numref l in Done (k v).
  Definition one_f32 (k : f32 -> component) (l : list tree) : outcome component :=
    let? (v, _) := next_f32 l in Done (k v).
  Definition two_f32 (k : f32 -> f32 -> component) (l : list tree) : outcome component :=
    let? (a, l1) := next_f32 l in let? (b, _) := next_f32 l1 in Done (k a b).
  Definition code_of (k : string -> component) (l : list tree) : outcome component :=
    let? s := p_code l in Done (k s).

  (** lib.rs:54-97 and the [parse_from_iter] of each node. *)
  Definition p_component (p : tree) : outcome component :=
    let l := p_in p in
    match p_rule p with
    | r_points => p_points l
    | r_delayn => let? v := next_usizeref l in Done (CDelayn v)
    | r_delayms => one_numref CDelayms l
    | r_imp => one_numref CImp l
    | r_tri => one_numref CTri l
    | r_squ => one_numref CSqu l
    | r_saw => one_numref CSaw l
    | r_onepole => one_numref COnepole l
    | r_sin => one_numref CSin l
    | r_mul => one_numref CMul l
    | r_add => one_numref CAdd l
    | r_pan => one_numref CPan l
    | r_seq => p_seq l
    | r_choose => let? vs := collect pf32 l in Done (CChoose vs)          (* nodes.rs:569 *)
    | r_mix => Done (CMix (List.map p_text l))                           (* nodes.rs:606 *)
    | r_sp => let? (s, _) := next l in Done (CSp (p_text s))             (* nodes.rs:623 *)
    | r_speed => one_f32 CSpeed l                                        (* nodes.rs:394 *)
    | r_constsig => one_f32 CConstSig l                                  (* nodes.rs:712 *)
    | r_adc => let? (s, _) := next l in                                  (* nodes.rs:474 *)
               let? v := of_option (parse_u32 (p_text s)) in Done (CAdc v)
    | r_bd => one_numref CBd l
    | r_sn => one_numref CSn l
    | r_hh => one_numref CHh l
    | r_sawsynth => two_f32 CSawSynth l                                  (* nodes.rs:775 *)
    | r_squsynth => two_f32 CSquSynth l
    | r_trisynth => two_f32 CTriSynth l
    | r_lpf => let? (s, l1) := next_signal l in                          (* nodes.rs:876 *)
               let? (q, _) := next_f32 l1 in Done (CLpf s q)
    | r_psampler => p_psampler l
    | r_balance => let? (a, l1) := next l in let? (b, _) := next l1 in   (* nodes.rs:925 *)
                   Done (CBalance (p_text a) (p_text b))
    | r_rhpf => let? (v, l1) := next_numref l in                         (* nodes.rs:952 *)
                let? (q, _) := next_f32 l1 in Done (CRhpf v q)
    | r_apfmsgain => let? (v, l1) := next_numref l in                    (* nodes.rs:971 *)
                     let? (g, _) := next_f32 l1 in Done (CApfmsGain v g)
    | r_reverb =>                                                        (* nodes.rs:1041 *)
        let? (a, l1) := next_f32 l in let? (b, l2) := next_f32 l1 in
        let? (d, l3) := next_f32 l2 in let? (e, l4) := next_f32 l3 in
        let? (g, _) := next_f32 l4 in Done (CReverb a b d e g)
    | r_envperc => two_f32 CEnvPerc l                                    (* nodes.rs:1064 *)
    | r_adsr =>                                                          (* nodes.rs:1083 *)
        let? (a, l1) := next_f32 l in let? (b, l2) := next_f32 l1 in
        let? (d, l3) := next_f32 l2 in let? (e, _) := next_f32 l3 in Done (CAdsr a b d e)
    | r_plate => one_f32 CPlate l                                        (* nodes.rs:489 *)
    | r_get => let? (s, _) := next l in Done (CGet (p_text s))           (* nodes.rs:408 *)
    | r_noise => let? (s, _) := next l in                                (* nodes.rs:428 *)
                 let? v := pusize s in Done (CNoise v)
    | r_meta => code_of CMeta l
    | r_expr => code_of CExpr l
    | r_eval => code_of CEval l
    | r_arrange => let? vs := collect p_numref l in Done (CArrange vs)   (* nodes.rs:588 *)
    | r_msgsynth => let? (s, l1) := next l in                            (* nodes.rs:824 *)
                    let? (a, l2) := next_f32 l1 in let? (d, _) := next_f32 l2 in
                    Done (CMsgSynth (p_text s) a d)
    | r_pattern_synth => let? (s, l1) := next l in                       (* nodes.rs:853 *)
                         let? (v, _) := next_f32 l1 in Done (CPatternSynth (p_text s) v)
    | _ => err
    end.

  (** lib.rs:30-106. *)
  Definition p_node (p : tree) : outcome component :=
    let? (n, _) := next (p_in p) in p_component n.
  Definition p_line (p : tree) : outcome (string * list component) :=
    let? (r, l1) := next (p_in p) in
    if is_rule r_reference r then
      let? (ch, _) := next l1 in
      if is_rule r_chain ch then
        let? cs := collect p_node (p_in ch) in Done (p_text r, cs)
      else err
    else err.
  (** [collect::<Result<HashMap<_, _>, _>>]: the last line with a name wins. *)
  Definition to_ast (l : list (string * list component)) : gmap string (list component) :=
    fold_left (fun m kv => <[kv.1 := kv.2]> m) l ∅.
  (** lib.rs:16 [get_ast]. *)
  Definition get_ast (code : string) : outcome (gmap string (list component)) :=
    match peg_run true g_block code with
    | Some (b :: _, _, _) =>
        let? ls := collect p_line (List.filter (is_rule r_line) (p_in b)) in
        Done (to_ast ls)
    | _ => err
    end.
End parse.
