(** * NodesFilter: delays, envelopes, filters. *)
From Verif Require Export NodesBasic.
Local Open Scope Z_scope.

(** ** delay/delayn.rs *)
Record delayn := DelayN { dn_buf : ring; dn_n : Z; dn_ord : list nat }.
Definition delayn_new (n : Z) : res delayn :=
  b ← ring_from (zeros (if n =? 0 then 1 else n)); mret (DelayN b n []).
(** delayn.rs:29-59.  The right channel is written only for a mono input into two
    output channels. *)
Definition delayn_proc (s : delayn) (ins : inmap) (out : list sig) : res (delayn * list sig) :=
  match ins with
  | [p] =>
      if dn_n s =? 0 then Ok (s, pass_out ins out)
      else m0 ← chan p.2 0;
           let '(b', o) := scan ring_push (dn_buf s) m0 in
           out' ← put0 out o;
           mret (DelayN b' (dn_n s) (dn_ord s),
                 match p.2, out' with
                 | [_], [l; _] => [l; l]
                 | _, _ => out'
                 end)
  | _ => Ok (s, out)
  end.
(** delayn.rs:61-77: [Fixed::from] panics for 0. *)
Definition delayn_msg (P : platform) (s : delayn) (m : msg) : res delayn :=
  match m with
  | SetToNumber 0 v =>
      let n := as_usize (p_cfg P) v in
      b ← ring_from (zeros n); mret (DelayN b n (dn_ord s))
  | _ => o ← ord_msg (dn_ord s) m; mret (DelayN (dn_buf s) (dn_n s) o)
  end.

(** ** delay/delayms.rs *)
Record delayms := DelayMs { dm_bufs : list ring; dm_sr : Z; dm_ord : list nat; dm_n : Z }.
Definition ms_samples (P : platform) (sr : Z) (ms : f32) : Z :=
  as_usize (p_cfg P) (fmul (fdiv ms (f_of_Z 1000)) (f_of_Z sr)).
(** [DelayMs::new().sr(sr).delay(delay, chan)], delayms.rs:29-38. *)
Definition delayms_new (P : platform) (sr : Z) (delay : f32) (ch : nat) : res delayms :=
  let n := Z.max (ms_samples P sr delay) 1 in
  b ← ring_from (zeros n); mret (DelayMs (replicate ch b) sr [] n).
(** delayms.rs:79-84, filter/apfmsgain.rs:78-83: the read position for a modulator value. *)
Definition mod_pos (P : platform) (sr : Z) (len : nat) (m : f32) : res (Z * f32) :=
  pos ← while_ (fun pos => if fltb pos f0 then inl (fadd pos (f_of_Z (Z.of_nat len))) else inr pos)
               (fmul (fdiv (fneg m) (f_of_Z 1000)) (f_of_Z sr));
  mret (as_usize (p_cfg P) (ffloor pos), ffract pos).
(** delayms.rs:93-94: the interpolation as written. *)
Definition mod_read (P : platform) (r : ring) (pf : Z * f32) : res f32 :=
  nxt ← uadd (p_cfg P) pf.1 1;
  mret (fadd (fmul (ring_get r pf.1) pf.2) (fmul (ring_get r nxt) (fsub f1 pf.2))).
Definition delayms_mod_chan (P : platform) (poss : list (Z * f32)) (r : ring) (b : sig) : res (ring * sig) :=
  scanR (fun r pb => v ← mod_read P r pb.1; mret ((ring_push r pb.2).1, v)) r (zip poss b).
(** [buf.iter_mut().zip(output).zip(main)]: channel-wise, the shortest list decides. *)
Fixpoint chans (f : ring -> sig -> res (ring * sig)) (rs : list ring) (out ins : list sig)
  : res (list ring * list sig) :=
  match rs, out, ins with
  | r :: rs', _ :: out', b :: ins' =>
      rb ← f r b; rest ← chans f rs' out' ins'; mret (rb.1 :: rest.1, rb.2 :: rest.2)
  | _, _, _ => Ok (rs, out)
  end.
(** delayms.rs:45-105.  In the modulated case the loops over samples and over channels
    are interchanged (the read position depends only on the modulator and on the buffer
    length, which never changes). *)
Definition delayms_proc (P : platform) (s : delayms) (ins : inmap) (out : list sig)
  : res (delayms * list sig) :=
  m ← in_first ins;
  if negb ((1 <=? length m)%nat && (length m <=? 2)%nat) then Ok (s, out)
  else
    match ins with
    | [_] =>
        if dm_n s =? 0
        then b ← chan m 0; out' ← put0 out b; mret (s, out')
        else r ← chans (fun r b => Ok (scan ring_push r b)) (dm_bufs s) out m;
             mret (DelayMs r.1 (dm_sr s) (dm_ord s) (dm_n s), r.2)
    | [_; _] =>
        mb ← in_ord ins (dm_ord s) 0; rb ← in_ord ins (dm_ord s) 1; q ← chan rb 0;
        poss ← mapR (fun v =>
                  match dm_bufs s with
                  | r0 :: _ => mod_pos P (dm_sr s) (ring_len r0) v
                  | [] =>                                       (* self.buf[0] panics *)
                      if fltb (fmul (fdiv (fneg v) (f_of_Z 1000)) (f_of_Z (dm_sr s))) f0 then Panic
                      else Ok (0, f0)                           (* not used: no channels *)
                  end) q;
        r ← chans (delayms_mod_chan P poss) (dm_bufs s) out mb;
        mret (DelayMs r.1 (dm_sr s) (dm_ord s) (dm_n s), r.2)
    | _ => Ok (s, out)
    end.
Definition delayms_msg (P : platform) (s : delayms) (m : msg) : res delayms :=
  match m with
  | SetToNumber 0 v =>
      let n := ms_samples P (dm_sr s) v in
      if n =? 0 then Ok (DelayMs [] (dm_sr s) (dm_ord s) n)
      else b ← ring_from (zeros n);
           mret (DelayMs (replicate (length (dm_bufs s)) b) (dm_sr s) (dm_ord s) n)
  | _ => o ← ord_msg (dm_ord s) m; mret (DelayMs (dm_bufs s) (dm_sr s) o (dm_n s))
  end.

(** ** envelope/envperc.rs *)
Record envperc := EnvPerc { ep_att : f32; ep_dec : f32; ep_pos : Z; ep_scale : f32; ep_sr : Z; ep_ord : list nat }.
Definition envperc_new (att dec : f32) (sr : Z) : envperc := EnvPerc att dec 0 f1 sr [].
(** envperc.rs:58-72. *)
Definition perc_shape (attack decay dur pos : Z) : f32 :=
  if pos <=? attack then (if attack =? 0 then f0 else fdiv (f_of_Z pos) (f_of_Z attack))
  else if pos <=? dur then (if decay =? 0 then f0 else fdiv (f_of_Z (dur - pos)) (f_of_Z decay))
  else f0.
Definition envperc_step (attack decay dur : Z) (s : envperc) (x : f32) : envperc * f32 :=
  let trig := fgtb x f0 in
  let pos := if trig then 0 else ep_pos s in
  let scale := if trig then x else ep_scale s in
  (EnvPerc (ep_att s) (ep_dec s) (pos + 1) scale (ep_sr s) (ep_ord s),
   fmul (perc_shape attack decay dur pos) scale).
Definition secs (P : platform) (sr : Z) (t : f32) : Z := as_usize (p_cfg P) (fmul t (f_of_Z sr)).
Definition envperc_proc (P : platform) (s : envperc) (ins : inmap) (out : list sig) : res (envperc * list sig) :=
  match ins with
  | [_] =>
      let a := secs P (ep_sr s) (ep_att s) in
      let d := secs P (ep_sr s) (ep_dec s) in
      dur ← uadd (p_cfg P) a d;
      bs ← in_ord ins (ep_ord s) 0; b ← chan bs 0;
      let '(s', o) := scan (envperc_step a d dur) s b in
      out' ← put0 out o; mret (s', out')
  | _ => Ok (s, out)
  end.
Definition envperc_msg (s : envperc) (m : msg) : res envperc :=
  match m with
  | SetToNumber 0 v => Ok (EnvPerc v (ep_dec s) (ep_pos s) (ep_scale s) (ep_sr s) (ep_ord s))
  | SetToNumber 1 v => Ok (EnvPerc (ep_att s) v (ep_pos s) (ep_scale s) (ep_sr s) (ep_ord s))
  | _ => o ← ord_msg (ep_ord s) m; mret (EnvPerc (ep_att s) (ep_dec s) (ep_pos s) (ep_scale s) (ep_sr s) o)
  end.

(** ** envelope/adsr.rs; [step] and [gate] are written but never read. *)
Record adsr := Adsr {
  ad_att : f32; ad_dec : f32; ad_sus : f32; ad_rel : f32; ad_pos : Z; ad_lastx : f32; ad_lasty : f32;
  ad_change : f32; ad_sr : Z; ad_phase : Z; ad_ord : list nat
}.
Definition adsr_new (att dec sus rel : f32) (sr : Z) : adsr :=
  Adsr att dec sus rel 0 f0 f0 f0 sr 0 [].
(** adsr.rs:89-125; [attack_len + decay_len] as a [usize] sum. *)
Definition adsr_shape (c : cfg) (sus : f32) (phase pos a d r : Z) (change : f32) : res f32 :=
  if phase =? 1 then
    if pos <=? a
    then Ok (if a =? 0 then f0
             else fmul (fdiv (f_of_Z pos) (f_of_Z a)) (fsub f1 change))
    else ad ← uadd c a d;
         mret (if pos <=? ad
               then if d =? 0 then sus
                    else fadd (fmul (fdiv (f_of_Z (ad - pos)) (f_of_Z d)) (fsub f1 sus)) sus
               else sus)
  else if phase =? 2 then
    Ok (if r <=? pos then f0 else fmul (fdiv (f_of_Z (r - pos)) (f_of_Z r)) change)
  else Ok f0.
(** adsr.rs:75-130. *)
Definition adsr_step (c : cfg) (a d r : Z) (s : adsr) (x : f32) : res (adsr * f32) :=
  let rise := fgtb x f0 && feqb (ad_lastx s) f0 in
  let fall := feqb x f0 && fgtb (ad_lastx s) f0 in
  let phase := if rise then 1 else if fall then 2 else ad_phase s in
  let pos := if rise || fall then 0 else ad_pos s in
  let change := if rise || fall then ad_lasty s else ad_change s in
  y ← adsr_shape c (ad_sus s) phase pos a d r change;
  mret (Adsr (ad_att s) (ad_dec s) (ad_sus s) (ad_rel s) (pos + 1) x y change (ad_sr s) phase (ad_ord s), y).
Definition adsr_proc (P : platform) (s : adsr) (ins : inmap) (out : list sig) : res (adsr * list sig) :=
  match ins with
  | [_] =>
      let a := secs P (ad_sr s) (ad_att s) in
      let d := secs P (ad_sr s) (ad_dec s) in
      let r := secs P (ad_sr s) (ad_rel s) in
      bs ← in_ord ins (ad_ord s) 0; b ← chan bs 0;
      match scanR (adsr_step (p_cfg P) a d r) s b with
      | Ok (s', o) => out' ← put0 out o;
                      mret (s', match out' with [l; _] => [l; l] | _ => out' end)
      | Panic => Panic
      end
  | _ => Ok (s, out)
  end.
Definition adsr_msg (s : adsr) (m : msg) : res adsr :=
  let mk a d su r o := Adsr a d su r (ad_pos s) (ad_lastx s) (ad_lasty s) (ad_change s) (ad_sr s) (ad_phase s) o in
  match m with
  | SetToNumber 0 v => Ok (mk v (ad_dec s) (ad_sus s) (ad_rel s) (ad_ord s))
  | SetToNumber 1 v => Ok (mk (ad_att s) v (ad_sus s) (ad_rel s) (ad_ord s))
  | SetToNumber 2 v => Ok (mk (ad_att s) (ad_dec s) v (ad_rel s) (ad_ord s))
  | SetToNumber 3 v => Ok (mk (ad_att s) (ad_dec s) (ad_sus s) v (ad_ord s))
  | _ => o ← ord_msg (ad_ord s) m; mret (mk (ad_att s) (ad_dec s) (ad_sus s) (ad_rel s) o)
  end.

(** ** filter/apfmsgain.rs *)
Record apf := Apf { ap_gain : f32; ap_x : ring; ap_y : ring; ap_sr : Z; ap_ord : list nat }.
(** [AllPassFilterGain::new().sr(sr).delay(delay).gain(gain)], apfmsgain.rs:31-46. *)
Definition apf_new (P : platform) (sr : Z) (delay gain : f32) : res apf :=
  let size := if feqb delay f0 then as_usize (p_cfg P) (fmul (f_of_Z 3) (f_of_Z sr))
              else ms_samples P sr delay in
  b ← ring_from (zeros size); mret (Apf gain b b sr []).
(** apfmsgain.rs:61, 90: [-gain * xn + xdelay + gain * ydelay]. *)
Definition apf_val (gain x xd yd : f32) : f32 :=
  fadd (fadd (fmul (fneg gain) x) xd) (fmul gain yd).
Definition apf_push (s : apf) (x y : f32) : apf :=
  Apf (ap_gain s) (ring_push (ap_x s) x).1 (ring_push (ap_y s) y).1 (ap_sr s) (ap_ord s).
Definition apf_step (s : apf) (x : f32) : apf * f32 :=
  let y := apf_val (ap_gain s) x (ring_get (ap_x s) 0) (ring_get (ap_y s) 0) in
  (apf_push s x y, y).
Definition apf_mod_step (P : platform) (s : apf) (xm : f32 * f32) : res (apf * f32) :=
  pf ← mod_pos P (ap_sr s) (ring_len (ap_x s)) xm.2;
  xd ← mod_read P (ap_x s) pf; yd ← mod_read P (ap_y s) pf;
  let y := apf_val (ap_gain s) xm.1 xd yd in
  mret (apf_push s xm.1 y, y).
Definition apf_proc (P : platform) (s : apf) (ins : inmap) (out : list sig) : res (apf * list sig) :=
  match ins with
  | [_] =>
      bs ← in_ord ins (ap_ord s) 0; b ← chan bs 0;
      let '(s', o) := scan apf_step s b in
      out' ← put0 out o; mret (s', out')
  | [_; _] =>
      mb ← in_ord ins (ap_ord s) 0; rb ← in_ord ins (ap_ord s) 1;
      m0 ← chan mb 0; r0 ← chan rb 0;
      match scanR (apf_mod_step P) s (zip m0 r0) with
      | Ok (s', o) => out' ← put0 out o; mret (s', out')
      | Panic => Panic
      end
  | _ => Ok (s, out)
  end.
Definition apf_msg (P : platform) (s : apf) (m : msg) : res apf :=
  match m with
  | SetToNumber 0 v =>
      let n := ms_samples P (ap_sr s) v in
      Ok (Apf (ap_gain s) (ring_set_first (ap_x s) n) (ring_set_first (ap_y s) n) (ap_sr s) (ap_ord s))
  | SetToNumber 1 v => Ok (Apf v (ap_x s) (ap_y s) (ap_sr s) (ap_ord s))
  | _ => o ← ord_msg (ap_ord s) m; mret (Apf (ap_gain s) (ap_x s) (ap_y s) (ap_sr s) o)
  end.

(** ** filter/onepole.rs *)
Record onepole := OnePole { on_a : f32; on_b : f32; on_y1 : f32; on_ord : list nat }.
(** onepole.rs:19-20. *)
Definition pole_b (P : platform) (rate : f32) : f32 := p_exp P (fmul (fmul (f_of_Z (-2)) fpi) rate).
Definition onepole_new (P : platform) (rate : f32) : onepole :=
  OnePole (fsub f1 (pole_b P rate)) (pole_b P rate) f0 [].
Definition pole_step (s : onepole) (x : f32) : onepole * f32 :=
  let y := fadd (fmul x (on_a s)) (fmul (on_b s) (on_y1 s)) in
  (OnePole (on_a s) (on_b s) y (on_ord s), y).
(** onepole.rs:46-56: the main input sets the rate and the reference is filtered. *)
Definition pole_mod_step (P : platform) (s : onepole) (mr : f32 * f32) : onepole * f32 :=
  let b := pole_b P mr.1 in
  pole_step (OnePole (fsub f1 b) b (on_y1 s) (on_ord s)) mr.2.
Definition onepole_proc (P : platform) (s : onepole) (ins : inmap) (out : list sig) : res (onepole * list sig) :=
  match ins with
  | [p] =>
      m0 ← chan p.2 0;
      let '(s', o) := scan pole_step s m0 in
      out' ← put0 out o; mret (s', out')
  | [_; _] =>
      mb ← in_ord ins (on_ord s) 0; rb ← in_ord ins (on_ord s) 1;
      m0 ← chan mb 0; r0 ← chan rb 0;
      let '(s', o) := scan (pole_mod_step P) s (zip m0 r0) in
      out' ← put0 out o; mret (s', out')
  | _ => Ok (s, out)
  end.
Definition onepole_msg (P : platform) (s : onepole) (m : msg) : res onepole :=
  match m with
  | SetToNumber 0 v => Ok (OnePole (fsub f1 (pole_b P v)) (pole_b P v) (on_y1 s) (on_ord s))
  | _ => o ← ord_msg (on_ord s) m; mret (OnePole (on_a s) (on_b s) (on_y1 s) o)
  end.

(** ** filter/rlpf.rs and filter/rhpf.rs *)
(** The field [self.x0] is never written: it stays 0.0.  [bq_pattern], [bq_span],
    [bq_bpm], [bq_step] exist in the low-pass filter only. *)
Record biquad := Biquad {
  bq_cutoff : f32; bq_q : f32; bq_x1 : f32; bq_x2 : f32; bq_y1 : f32; bq_y2 : f32;
  bq_sr : Z; bq_pattern : list (f32 * f32); bq_span : f32; bq_bpm : f32; bq_step : Z; bq_ord : list nat
}.
Record coefs := Coefs { c_a0 : f32; c_a1 : f32; c_a2 : f32; c_b1 : f32; c_b2 : f32 }.
(** rlpf.rs:79, 100-108; rhpf.rs:55-63. *)
Definition theta (cutoff : f32) (sr : Z) : f32 := fdiv (fmul (fmul f2 fpi) cutoff) (f_of_Z sr).
Definition beta_of (P : platform) (q th : f32) : f32 :=
  let d := fdiv f1 q in
  fdiv (fmul fhalf (fsub f1 (fdiv (fmul d (p_sin P th)) f2)))
       (fadd f1 (fdiv (fmul d (p_sin P th)) f2)).
Definition gama_of (P : platform) (q th : f32) : f32 := fmul (fadd fhalf (beta_of P q th)) (p_cos P th).
Definition lpf_coefs (P : platform) (q th : f32) : coefs :=
  let be := beta_of P q th in
  let ga := gama_of P q th in
  let s := fsub (fadd fhalf be) ga in
  Coefs (fdiv s f2) s (fdiv s f2) (fmul (f_of_Z (-2)) ga) (fmul f2 be).
Definition hpf_coefs (P : platform) (q th : f32) : coefs :=
  let be := beta_of P q th in
  let ga := gama_of P q th in
  let s := fadd (fadd fhalf be) ga in
  Coefs (fdiv s f2) (fsub (fsub (fneg fhalf) be) ga) (fdiv s f2) (fmul (f_of_Z (-2)) ga) (fmul f2 be).
(** rlpf.rs:110-118, 135-144; rhpf.rs:64-72. *)
Definition bq_val (k : coefs) (s : biquad) : f32 :=
  fsub (fsub (fadd (fadd (fmul (c_a0 k) f0) (fmul (c_a1 k) (bq_x1 s))) (fmul (c_a2 k) (bq_x2 s)))
             (fmul (c_b1 k) (bq_y1 s))) (fmul (c_b2 k) (bq_y2 s)).
Definition bq_step_with (k : coefs) (cutoff : f32) (s : biquad) (x : f32) : biquad * f32 :=
  let y := bq_val k s in
  (Biquad cutoff (bq_q s) x (bq_x1 s) y (bq_y1 s) (bq_sr s) (bq_pattern s) (bq_span s) (bq_bpm s)
          (bq_step s + 1) (bq_ord s), y).
(** rlpf.rs:92-98: the pattern may change the cutoff. *)
Definition bq_cut (P : platform) (s : biquad) : res f32 :=
  let cycle := fmul (fdiv (f_of_Z 60) (bq_bpm s)) (f_of_Z 4) in
  let bar := fmul (fmul cycle (bq_span s)) (f_of_Z (bq_sr s)) in
  foldM (fun cut ev =>
           r ← umod (bq_step s) (as_usize (p_cfg P) bar);
           mret (if r =? as_usize (p_cfg P) (fmul (fmul ev.2 cycle) (f_of_Z (bq_sr s))) then ev.1 else cut))
        (bq_cutoff s) (bq_pattern s).
Definition lpf_step (P : platform) (s : biquad) (x : f32) : res (biquad * f32) :=
  cut ← bq_cut P s;
  mret (bq_step_with (lpf_coefs P (bq_q s) (theta cut (bq_sr s))) cut s x).
Definition bq_proc_mod (kf : f32 -> f32 -> coefs) (s : biquad) (ins : inmap) (out : list sig)
  : res (biquad * list sig) :=
  mb ← in_ord ins (bq_ord s) 0; rb ← in_ord ins (bq_ord s) 1;
  r0 ← chan rb 0; m ← unwrap (r0 !! 0%nat);
  m0 ← chan mb 0;
  let k := kf (bq_q s) (theta m (bq_sr s)) in
  let '(s', o) := scan (fun st x => bq_step_with k (bq_cutoff st) st x) s m0 in
  out' ← put0 out o; mret (s', out').
Definition rlpf_proc (P : platform) (s : biquad) (ins : inmap) (out : list sig) : res (biquad * list sig) :=
  match ins with
  | [p] =>
      m0 ← chan p.2 0;
      match scanR (lpf_step P) s m0 with
      | Ok (s', o) => out' ← put0 out o; mret (s', out')
      | Panic => Panic
      end
  | [_; _] => bq_proc_mod (lpf_coefs P) s ins out
  | _ => Ok (s, out)
  end.
Definition rhpf_proc (P : platform) (s : biquad) (ins : inmap) (out : list sig) : res (biquad * list sig) :=
  match ins with
  | [p] =>
      m0 ← chan p.2 0;
      let k := hpf_coefs P (bq_q s) (theta (bq_cutoff s) (bq_sr s)) in
      let '(s', o) := scan (fun st x => bq_step_with k (bq_cutoff st) st x) s m0 in
      out' ← put0 out o; mret (s', out')
  | [_; _] => bq_proc_mod (hpf_coefs P) s ins out
  | _ => Ok (s, out)
  end.
(** rlpf.rs:150-174, rhpf.rs:103-118 (no [SetBPM] arm). *)
Definition bq_msg (s : biquad) (m : msg) : res biquad :=
  let mk c q o := Biquad c q (bq_x1 s) (bq_x2 s) (bq_y1 s) (bq_y2 s) (bq_sr s) (bq_pattern s) (bq_span s)
                         (bq_bpm s) (bq_step s) o in
  match m with
  | SetToNumber 0 v => Ok (mk v (bq_q s) (bq_ord s))
  | SetToNumber 1 v => Ok (mk (bq_cutoff s) v (bq_ord s))
  | _ => o ← ord_msg (bq_ord s) m; mret (mk (bq_cutoff s) (bq_q s) o)
  end.
(** rlpf.rs:28-45, rhpf.rs:23-35. *)
Definition bq_new (cutoff q : f32) (sr : Z) (pat : list (f32 * f32)) (span bpm : f32) : biquad :=
  Biquad cutoff q f0 f0 f0 f0 sr pat span bpm 0 [].
