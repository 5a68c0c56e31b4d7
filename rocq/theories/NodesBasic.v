(** * NodesBasic: operators, oscillators, simple signals, routing nodes. *)
From Verif Require Export Node.
Local Open Scope Z_scope.

(** ** operator/mod.rs, operator/add.rs, operator/mul.rs *)

Record opn := Opn { op_val : f32; op_ord : list nat }.

(** Pointwise combination of equally long buffers ([zip] in the source). *)
Definition zip_op (op : f32 -> f32 -> f32) (a b : sig) : sig := zip_with op a b.

(** operator/mod.rs:9-53 [apply_op]. *)
Definition apply_op (op : f32 -> f32 -> f32) (st : opn) (ins : inmap) (out : list sig)
  : res (list sig) :=
  match out with
  | [] => Panic                                            (* split_at_mut(1) *)
  | out_l :: out_r =>
      match ins with
      | [p] =>
          m0 ← chan p.2 0;
          let l := (fun x => op x (op_val st)) <$> m0 in
          let r := (fun x => op x (op_val st)) <$> default m0 (p.2 !! 1%nat) in
          mret (l :: match out_r with [] => [] | _ :: o => r :: o end)
      | [_; _] =>
          mb ← in_ord ins (op_ord st) 0;
          rb ← in_ord ins (op_ord st) 1;
          m0 ← chan mb 0;
          r0 ← chan rb 0;
          let l := zip_op op m0 r0 in
          let r := zip_op op (default m0 (mb !! 1%nat)) (default r0 (rb !! 1%nat)) in
          mret (l :: match out_r with [] => [] | _ :: o => r :: o end)
      | _ => Ok out
      end
  end.
Definition op_proc (op : f32 -> f32 -> f32) (st : opn) (ins : inmap) (out : list sig)
  : res (opn * list sig) := o ← apply_op op st ins out; mret (st, o).
(** operator/add.rs:38-48, operator/mul.rs:32-42. *)
Definition op_msg (st : opn) (m : msg) : res opn :=
  match m with
  | SetToNumber 0 v => Ok (Opn v (op_ord st))
  | _ => o ← ord_msg (op_ord st) m; mret (Opn (op_val st) o)
  end.

(** ** oscillator/mod.rs, sin_osc.rs, saw_osc.rs, squ_osc.rs, tri_osc.rs *)

Inductive wave := WSin | WSaw | WSqu | WTri.
(** [os_inc] is unused by the sine. *)
Record osc := Osc { os_freq : f32; os_phase : f32; os_sr : Z; os_inc : f32; os_ord : list nat }.
(** [new().sr(sr).freq(freq)]. *)
Definition osc_new (freq : f32) (sr : Z) : osc := Osc freq f0 sr f0 [].
Definition osc_set_phase (o : osc) (p : f32) : osc :=
  Osc (os_freq o) p (os_sr o) (os_inc o) (os_ord o).

(** sin_osc.rs:45-48 and saw_osc.rs:51-54, squ_osc.rs:54-57, tri_osc.rs:51-55. *)
Definition advance (sr : Z) (phase freq : f32) : f32 :=
  let p := fadd phase (fdiv freq (f_of_Z sr)) in
  if fgtb p f1 then fsub p f1 else p.

(** The value written for a phase: sin_osc.rs:43, saw_osc.rs:50, squ_osc.rs:48-52,
    tri_osc.rs:48-50. *)
Definition wave_val (P : platform) (w : wave) (phase : f32) : f32 :=
  match w with
  | WSin => p_sin P (fmul (fmul phase f2) fpi)
  | WSaw => fsub (fmul phase f2) f1
  | WSqu => if fleb phase fhalf then f1 else fm1
  | WTri => let v := fadd fm1 (fmul phase f2) in fmul f2 (fsub (fabs v) fhalf)
  end.

Definition osc_step (P : platform) (w : wave) (o : osc) (freq : f32) : osc * f32 :=
  (osc_set_phase o (advance (os_sr o) (os_phase o) freq), wave_val P w (os_phase o)).

(** One modulated sample: the sine takes the modulator as is (sin_osc.rs:57-65), the
    others keep the last non-zero modulator value (oscillator/mod.rs:33-39). *)
Definition osc_mod_step (P : platform) (w : wave) (o : osc) (m : f32) : osc * f32 :=
  match w with
  | WSin => osc_step P w o m
  | _ => let inc := if feqb m f0 then os_inc o else m in
         let o' := Osc (os_freq o) (os_phase o) (os_sr o) inc (os_ord o) in
         osc_step P w o' inc
  end.

(** The sine writes all its output buffers, the others [output[0]] only. *)
Definition osc_put (w : wave) (out : list sig) (b : sig) : res (list sig) :=
  match w with
  | WSin => Ok ((fun _ => b) <$> out)
  | _ => put0 out b
  end.

(** sin_osc.rs:38-70, oscillator/mod.rs:13-43. *)
Definition osc_proc (P : platform) (w : wave) (o : osc) (ins : inmap) (out : list sig)
  : res (osc * list sig) :=
  match ins with
  | [] =>
      let '(o', b) := scan (fun o (_ : unit) => osc_step P w o (os_freq o)) o (replicate (p_blk P) tt) in
      out' ← osc_put w out b; mret (o', out')
  | [p] =>
      mb ← match os_ord o with [] => Ok p.2 | _ => in_ord ins (os_ord o) 0 end;
      m0 ← chan mb 0;
      let '(o', b) := scan (osc_mod_step P w) o m0 in
      out' ← osc_put w out b; mret (o', out')
  | _ => Ok (o, out)
  end.
Definition osc_msg (o : osc) (m : msg) : res osc :=
  match m with
  | SetToNumber 0 v => Ok (Osc v (os_phase o) (os_sr o) (os_inc o) (os_ord o))
  | _ => l ← ord_msg (os_ord o) m; mret (Osc (os_freq o) (os_phase o) (os_sr o) (os_inc o) l)
  end.

(** ** signal/constsig.rs.  [events] and [pattern] stay empty: [makenode] only calls
    [ConstSig::new(v).sr(sr)] and the engine never sends [SetPattern]. *)
Record csig := CSig { cs_val : f32; cs_ord : list nat }.
Definition csig_proc (P : platform) (s : csig) (ins : inmap) (out : list sig) : res (csig * list sig) :=
  out' ← put0 out (replicate (p_blk P) (cs_val s)); mret (s, out').
(** constsig.rs:76-88 (no [ResetOrder] arm; [bpm] has no effect without events). *)
Definition csig_msg (s : csig) (m : msg) : res csig :=
  match m with
  | SetToNumber 0 v => Ok (CSig v (cs_ord s))
  | _ => o ← ord_msg_keep (cs_ord s) m; mret (CSig (cs_val s) o)
  end.

(** ** signal/imp.rs *)
Record imp := Imp { im_clock : Z; im_period : Z; im_sr : Z; im_ord : list nat }.
(** imp.rs:28,53: [(sr as f32 / freq) as usize]. *)
Definition imp_period (P : platform) (sr : Z) (freq : f32) : Z :=
  as_usize (p_cfg P) (fdiv (f_of_Z sr) freq).
(** [Impulse::new().sr(sr).freq(freq)]. *)
Definition imp_new (P : platform) (sr : Z) (freq : f32) : imp := Imp 0 (imp_period P sr freq) sr [].
(** imp.rs:45-48.  Simplification (all sample counters): the counter does not overflow
    (2^32 samples on wasm32, about 27 hours at 44.1 kHz; 2^64 elsewhere). *)
Definition imp_step (s : imp) : res (imp * f32) :=
  r ← umod (im_clock s) (im_period s);
  mret (Imp (im_clock s + 1) (im_period s) (im_sr s) (im_ord s), if r =? 0 then f1 else f0).
Definition imp_proc (P : platform) (s : imp) (ins : inmap) (out : list sig) : res (imp * list sig) :=
  match scanR (fun s (_ : unit) => imp_step s) s (replicate (p_blk P) tt) with
  | Ok (s', b) => out' ← put0 out b; mret (s', out')
  | Panic => Panic
  end.
Definition imp_msg (P : platform) (s : imp) (m : msg) : res imp :=
  match m with
  | SetToNumber 0 v => Ok (Imp (im_clock s) (imp_period P (im_sr s) v) (im_sr s) (im_ord s))
  | _ => o ← ord_msg_keep (im_ord s) m; mret (Imp (im_clock s) (im_period s) (im_sr s) o)
  end.

(** ** signal/noise.rs: [no_count] values of [signal::noise(no_seed)] are consumed. *)
Record noise := Noise { no_seed : Z; no_count : Z; no_ord : list nat }.
Definition noise_next (P : platform) (s : noise) : noise * f64 :=
  (Noise (no_seed s) (no_count s + 1) (no_ord s), p_noise P (no_seed s) (no_count s)).
(** noise.rs:20-25: every channel draws its own values, one after the other. *)
Definition noise_proc (P : platform) (s : noise) (ins : inmap) (out : list sig) : res (noise * list sig) :=
  Ok (scan (fun s (_ : sig) =>
              scan (fun s (_ : unit) => let '(s', v) := noise_next P s in (s', f_of_d v)) s
                   (replicate (p_blk P) tt)) s out).
(** noise.rs:26-33; [value as u64] is taken with the 64-bit saturating conversion. *)
Definition noise_msg (s : noise) (m : msg) : res noise :=
  match m with
  | SetToNumber 0 v => Ok (Noise (as_usize (Cfg false (2 ^ 64 - 1)) v) 0 (no_ord s))
  | _ => o ← ord_msg_keep (no_ord s) m; mret (Noise (no_seed s) (no_count s) o)
  end.

(** ** effect/balance.rs *)
Definition balance_proc (ord : list nat) (ins : inmap) (out : list sig) : res (list nat * list sig) :=
  match ins with
  | [_; _] =>
      lb ← in_ord ins ord 0; rb ← in_ord ins ord 1;
      l ← chan lb 0; r ← chan rb 0;
      out' ← put01 out l r; mret (ord, out')
  | _ => Ok (ord, out)
  end.

(** ** effect/pan.rs *)
Record pan := Pan { pn_pos : f32; pn_ord : list nat }.
(** pan.rs:26-28, 50-52. *)
Definition pan_norm (pos : f32) : f32 := fdiv (fadd pos f1) f2.
Definition pan_left (pos : f32) : f32 := fsqrt (fsub f1 (pan_norm pos)).
Definition pan_right (pos : f32) : f32 := fsqrt (pan_norm pos).
Definition pan_proc (s : pan) (ins : inmap) (out : list sig) : res (pan * list sig) :=
  match ins with
  | [p] =>
      m0 ← chan p.2 0;
      out' ← put01 out (fmul (pan_left (pn_pos s)) <$> m0) (fmul (pan_right (pn_pos s)) <$> m0);
      mret (s, out')
  | _ =>
      rb ← in_ord ins (pn_ord s) 1; mb ← in_ord ins (pn_ord s) 0;
      r0 ← chan rb 0; m0 ← chan mb 0;
      out' ← put01 out (zip_with (fun q x => fmul (pan_left q) x) r0 m0)
                       (zip_with (fun q x => fmul (pan_right q) x) r0 m0);
      mret (s, out')
  end.
Definition pan_msg (s : pan) (m : msg) : res pan :=
  match m with
  | SetToNumber 0 v => Ok (Pan (fclamp v fm1 f1) (pn_ord s))
  | _ => o ← ord_msg (pn_ord s) m; mret (Pan (pn_pos s) o)
  end.

(** ** pass.rs:36-55, also delay/delayn.rs:42-56 *)
Definition pass_out (ins : inmap) (out : list sig) : list sig :=
  match ins with
  | [] => out
  | p :: _ =>
      match p.2, out with
      | [b], [_; _] => [b; b]
      | bs, _ => zip_with (fun b _ => b) bs out ++ drop (length bs) out
      end
  end.

(** ** sum.rs *)
(** dasp_slice::add_in_place. *)
Definition add_sig (a b : sig) : sig := zip_with fadd a b.
(** sum.rs:51-69 [Sum] and sum.rs:71-93 [Sum2]: per output channel, silence plus the
    inputs in iteration order. *)
Definition sum_chan (P : platform) (ins : inmap) (ch : nat) : sig :=
  foldl (fun acc p => match p.2 !! ch with Some b => add_sig acc b | None => acc end) (silent P) ins.
Definition sum2_chan (P : platform) (ins : inmap) (ch : nat) : res sig :=
  foldM (fun acc p => match p.2 !! ch with
                      | Some b => Ok (add_sig acc b)
                      | None => b0 ← chan p.2 0; mret (add_sig acc b0)
                      end) (silent P) ins.
Definition sum_proc (P : platform) (ins : inmap) (out : list sig) : list sig :=
  imap (fun ch _ => sum_chan P ins ch) out.
Definition sum2_proc (P : platform) (ins : inmap) (out : list sig) : res (list sig) :=
  mapR (sum2_chan P ins) (seq 0 (length out)).

(** ** sequencer/speed.rs: the value at sample 0, silence elsewhere. *)
Record spd := Spd { sp_val : f32; sp_ord : list nat }.
Definition spd_proc (P : platform) (s : spd) (ins : inmap) (out : list sig) : res (spd * list sig) :=
  match silent P with
  | [] => Panic
  | _ :: r => out' ← put0 out (sp_val s :: r); mret (s, out')
  end.
Definition spd_msg (s : spd) (m : msg) : res spd :=
  match m with
  | SetToNumber 0 v => Ok (Spd v (sp_ord s))
  | _ => o ← ord_msg (sp_ord s) m; mret (Spd (sp_val s) o)
  end.

(** ** dynamic/eval.rs and dynamic/meta.rs: the interpreters are parameters. *)
Record evaln (P : platform) := Evaln { ev_ext : p_ext P; ev_phase : Z; ev_ord : list nat }.
Arguments Evaln {P} _ _ _.
Arguments ev_ext {P} _.
Arguments ev_phase {P} _.
Arguments ev_ord {P} _.
Definition eval_step (P : platform) (s : evaln P) (x : option f32) : res (evaln P * f32) :=
  match p_eval_step P (ev_ext s) x (ev_phase s) with
  | Ok (e, v) => Ok (Evaln e (ev_phase s + 1) (ev_ord s), v)
  | Panic => Panic
  end.
(** eval.rs:92-116. *)
Definition eval_proc (P : platform) (s : evaln P) (ins : inmap) (out : list sig)
  : res (evaln P * list sig) :=
  xs ← match ins with
       | [] => Ok (replicate (p_blk P) None)
       | _ => bs ← in_ord ins (ev_ord s) 0; b ← chan bs 0; mret (Some <$> b)
       end;
  match scanR (eval_step P) s xs with
  | Ok (s', b) => out' ← put0 out b; mret (s', out')
  | Panic => Panic
  end.
Definition eval_msg (P : platform) (s : evaln P) (m : msg) : res (evaln P) :=
  match m with
  | SetToSymbol 0 code => e ← p_eval_code P (ev_ext s) code; mret (Evaln e (ev_phase s) (ev_ord s))
  | _ => o ← ord_msg (ev_ord s) m; mret (Evaln (ev_ext s) (ev_phase s) o)
  end.
(** meta.rs:98-127: only the floats of the returned array are written. *)
Fixpoint meta_write (b : sig) (r : list (option f32)) : sig :=
  match b, r with
  | x :: b', v :: r' => default x v :: meta_write b' r'
  | _, _ => b
  end.
Definition meta_proc (P : platform) (s : evaln P) (ins : inmap) (out : list sig)
  : res (evaln P * list sig) :=
  x ← match ins with
      | [] => Ok None
      | _ => bs ← in_ord ins (ev_ord s) 0; b ← chan bs 0; mret (Some b)
      end;
  match p_meta_run P (ev_ext s) x with
  | (e, Some r) => b ← chan out 0; out' ← put0 out (meta_write b r);
                   mret (Evaln e (ev_phase s) (ev_ord s), out')
  | (e, None) => Ok (Evaln e (ev_phase s) (ev_ord s), out)
  end.
Definition meta_msg (P : platform) (s : evaln P) (m : msg) : res (evaln P) :=
  match m with
  | SetToSymbol 0 code => Ok (Evaln (p_meta_code P (ev_ext s) code) (ev_phase s) (ev_ord s))
  | _ => o ← ord_msg (ev_ord s) m; mret (Evaln (ev_ext s) (ev_phase s) o)
  end.
