(** * NodesSeq: sequencers, breakpoint signals, samplers and synths. *)
From Verif Require Export NodesBasic.
Local Open Scope Z_scope.

(** /repo/rs/parser/src/nodes.rs:310 [NumberOrRef], nodes.rs:438 [UsizeOrRef]. *)
Inductive numref := Num (v : f32) | NRef (s : string).
Inductive usizeref := Usz (n : Z) | URef (s : string).

(** ** sequencer/seq.rs *)
Record seqr := Seqr {
  sq_events : list (f32 * usizeref);
  sq_order : gmap string nat;                  (* ref_order *)
  sq_speed : f32; sq_bpm : f32; sq_sr : Z; sq_step : Z; sq_ord : list nat
}.
(** seq.rs:45, 76. *)
Definition bar_length (bpm : f32) (sr : Z) (speed : f32) : f64 :=
  ddiv (dmul (ddiv (d_of_Z 240) (d_of_f bpm)) (d_of_Z sr)) (d_of_f speed).
(** seq.rs:57-61, 93-97: MIDI note to a playback rate around note 60. *)
Definition note_rate (P : platform) (midi : f32) : f32 :=
  if feqb midi f0 then f0 else p_pow2 P (fdiv (fsub midi (f_of_Z 60)) (f_of_Z 12)).
(** seq.rs:46-65, 77-101: one sample; [look s] is the value of reference [s]. *)
Definition seq_sample (P : platform) (bar : f64) (look : string -> res f32) (step : Z)
    (events : list (f32 * usizeref)) : res f32 :=
  foldM (fun acc ev =>
           r ← umod step (as_usize (p_cfg P) bar);
           if r =? as_usize (p_cfg P) (dmul (d_of_f ev.1) bar)
           then midi ← match ev.2 with
                       | Usz n => Ok (f_of_Z n)
                       | URef s => look s
                       end;
                mret (note_rate P midi)
           else mret acc) f0 events.
Definition seq_set (s : seqr) (speed : f32) (step : Z) : seqr :=
  Seqr (sq_events s) (sq_order s) speed (sq_bpm s) (sq_sr s) step (sq_ord s).
(** seq.rs:80-90 with [idx] the sample index. *)
Definition seq_look (s : seqr) (ins : inmap) (has_speed : bool) (idx : nat) (name : string) : res f32 :=
  k ← unwrap (sq_order s !! name);
  bs ← in_ord ins (sq_ord s) (k + (if has_speed then 1 else 0))%nat;
  b ← chan bs 0;
  unwrap (b !! idx).
Definition seq_proc (P : platform) (s : seqr) (ins : inmap) (out : list sig) : res (seqr * list sig) :=
  match ins with
  | [] =>
      let bar := bar_length (sq_bpm s) (sq_sr s) (sq_speed s) in
      match scanR (fun s (_ : unit) =>
               v ← seq_sample P bar (fun _ => Ok f0) (sq_step s) (sq_events s);
               mret (seq_set s (sq_speed s) (sq_step s + 1), v)) s (replicate (p_blk P) tt) with
      | Ok (s', b) => out' ← put0 out b; mret (s', out')
      | Panic => Panic
      end
  | _ =>
      pb ← in_ord ins (sq_ord s) 0; p0 ← chan pb 0;
      v0 ← unwrap (p0 !! 0%nat);
      has ← (if fgtb v0 f0 then v1 ← unwrap (p0 !! 1%nat); mret (feqb v1 f0) else mret false);
      let s1 := seq_set s (if has : bool then v0 else sq_speed s) (sq_step s) in
      let bar := bar_length (sq_bpm s1) (sq_sr s1) (sq_speed s1) in
      match scanR (fun st idx =>
               v ← seq_sample P bar (seq_look st ins has idx) (sq_step st) (sq_events st);
               mret (seq_set st (sq_speed st) (sq_step st + 1), v)) s1 (seq 0 (p_blk P)) with
      | Ok (s', b) => out' ← put0 out b; mret (s', out')
      | Panic => Panic
      end
  end.
Definition seq_msg (s : seqr) (m : msg) : res seqr :=
  match m with
  | SetBPM bpm => Ok (Seqr (sq_events s) (sq_order s) (sq_speed s) bpm (sq_sr s) (sq_step s) (sq_ord s))
  | _ => o ← ord_msg (sq_ord s) m;
         mret (Seqr (sq_events s) (sq_order s) (sq_speed s) (sq_bpm s) (sq_sr s) (sq_step s) o)
  end.

(** ** sequencer/choose.rs *)
Record chooser := Choose { ch_noise : noise; ch_list : list f32 }.
(** choose.rs:24-27. *)
Definition choose_index (P : platform) (v : f64) (len : nat) : Z :=
  let id := as_usize (p_cfg P) (dmul (dadd (dmul v d_half) d_half) (d_of_Z (Z.of_nat len))) in
  if id =? Z.of_nat len then 0 else id.
Definition choose_proc (P : platform) (s : chooser) (ins : inmap) (out : list sig) : res (chooser * list sig) :=
  let '(n', v) := noise_next P (ch_noise s) in
  b ← mapR (fun _ : unit => at_ (ch_list s) (choose_index P v (length (ch_list s))))
           (replicate (p_blk P) tt);
  out' ← put0 out b;
  mret (Choose n' (ch_list s), out').
Definition choose_msg (s : chooser) (m : msg) : res chooser :=
  o ← ord_msg (no_ord (ch_noise s)) m;
  mret (Choose (Noise (no_seed (ch_noise s)) (no_count (ch_noise s)) o) (ch_list s)).

(** ** sequencer/arrange.rs; [speed] is always 1.0 and kept in the formula. *)
Record arrange := Arrange { ar_events : list numref; ar_bpm : f32; ar_sr : Z; ar_step : Z; ar_ord : list nat }.
Definition ar_set (s : arrange) (step : Z) : arrange :=
  Arrange (ar_events s) (ar_bpm s) (ar_sr s) step (ar_ord s).
Definition ar_bar (s : arrange) : f32 :=
  fdiv (fmul (fdiv (f_of_Z 240) (ar_bpm s)) (f_of_Z (ar_sr s))) f1.
(** What the loop arrange.rs:51-80 decides for one sample. *)
Inductive ar_pick := APass (j : nat) | AWrap | AKeep | AStop.
Fixpoint ar_find (events : list numref) (pos acc : f32) (j : nat) : ar_pick :=
  match events with
  | _ :: e :: rest =>
      match e with
      | Num bar =>
          let acc := fadd acc bar in
          if fltb pos acc then APass j
          else match rest with
               | _ :: _ :: _ => ar_find rest pos acc (S j)
               | _ => AWrap
               end
      | NRef _ => AStop
      end
  | _ => AKeep
  end.
(** arrange.rs:48-82, sample by sample; [old] is what the output buffer holds.
    [AStop] is the [return] at arrange.rs:53. *)
Fixpoint ar_loop (s : arrange) (ins : inmap) (idx : nat) (old : sig) : res (arrange * sig) :=
  match old with
  | [] => Ok (s, [])
  | x :: old' =>
      let fetch k := bs ← in_ord ins (ar_ord s) k; b ← chan bs 0; unwrap (b !! idx) in
      match ar_find (ar_events s) (fdiv (f_of_Z (ar_step s)) (ar_bar s)) f0 0 with
      | APass j =>
          v ← fetch j; r ← ar_loop (ar_set s (ar_step s + 1)) ins (S idx) old'; mret (r.1, v :: r.2)
      | AWrap =>
          v ← fetch 0%nat; r ← ar_loop (ar_set s 1) ins (S idx) old'; mret (r.1, v :: r.2)
      | AKeep => r ← ar_loop (ar_set s (ar_step s + 1)) ins (S idx) old'; mret (r.1, x :: r.2)
      | AStop => Ok (s, old)
      end
  end.
Definition arrange_proc (s : arrange) (ins : inmap) (out : list sig) : res (arrange * list sig) :=
  old ← chan out 0; r ← ar_loop s ins 0 old; out' ← put0 out r.2; mret (r.1, out').
(** arrange.rs:84-102.  In release builds [i - len] wraps to a huge count and
    [reserve(to_push + 1)] panics with a capacity overflow (or, for i + 1 = len,
    [to_push + 1] wraps to 0 and the endless [extend ... take(usize::MAX)] exhausts
    memory), so both builds end in a panic or abort. *)
Definition arrange_msg (s : arrange) (m : msg) : res arrange :=
  match m with
  | SetToNumber i v =>
      if i <? Z.of_nat (length (ar_events s)) then Panic
      else Ok (Arrange (ar_events s ++ replicate (Z.to_nat i - length (ar_events s)) (Num f0) ++ [Num v])
                       (ar_bpm s) (ar_sr s) 0 (ar_ord s))
  | _ => o ← ord_msg (ar_ord s) m; mret (Arrange (ar_events s) (ar_bpm s) (ar_sr s) (ar_step s) o)
  end.

(** ** signal/points.rs *)
(** /repo/rs/parser/src/nodes.rs:187-199 [Duration], [TimeList]. *)
Inductive duration := DBar (b : f32) | DSec (s : f32) | DMs (ms : f32).
Record timelist := TimeList { tl_bar : f32; tl_time : option duration }.
Record points := Points {
  po_list : list (Z * f32); po_span : f32; po_bpm : f32; po_sr : Z; po_step : Z;
  po_loop : bool; po_ord : list nat
}.
(** points.rs:75-76, 104-105: [60. / bpm * 4. * span * sr]. *)
Definition cycle_dur (bpm : f32) : f32 := fmul (fdiv (f_of_Z 60) bpm) (f_of_Z 4).
Definition bar_dur (bpm span : f32) (sr : Z) : f32 := fmul (fmul (cycle_dur bpm) span) (f_of_Z sr).
(** points.rs:74-86. *)
Definition point_pos (P : platform) (bpm span : f32) (sr : Z) (t : timelist) : Z :=
  let bd := bar_dur bpm span sr in
  let time_pos := match tl_time t with
                  | None => f0
                  | Some (DBar b) => fmul b bd
                  | Some (DSec s) => fmul s (f_of_Z sr)
                  | Some (DMs ms) => fmul (fdiv ms (f_of_Z 1000)) (f_of_Z sr)
                  end in
  as_usize (p_cfg P) (fadd (fmul (tl_bar t) bd) time_pos).
(** points.rs:65-94: [point_list[0]] panics on an empty list. *)
Definition make_points (P : platform) (bpm span : f32) (sr : Z) (pts : list (timelist * f32))
  : res (list (Z * f32)) :=
  let l := map (fun p => (point_pos P bpm span sr p.1, p.2)) pts in
  match l with
  | [] => Panic
  | (p0, _) :: _ => Ok (if p0 =? 0 then l else (0, f0) :: l)
  end.
(** [iter().position(|s| pos <= s.0)]. *)
Fixpoint find_from (pos : Z) (l : list (Z * f32)) (k : nat) : option nat :=
  match l with
  | [] => None
  | (q, _) :: l' => if pos <=? q then Some k else find_from pos l' (S k)
  end.
Definition lerp (pos : Z) (a b : Z * f32) : f32 :=
  let t := fdiv (fsub (f_of_Z pos) (f_of_Z a.1)) (fsub (f_of_Z b.1) (f_of_Z a.1)) in
  fadd a.2 (fmul t (fsub b.2 a.2)).
(** points.rs:108-128, one sample (the list is not empty). *)
Definition points_once (P : platform) (l : list (Z * f32)) (pos : Z) : res f32 :=
  index ← match find_from pos l 0 with
          | None => Ok 0
          | Some p => usub (p_cfg P) (Z.of_nat p) 1
          end;
  if index <? Z.of_nat (length l) - 1
  then a ← at_ l index; b ← at_ l (index + 1); mret (lerp pos a b)
  else a ← unwrap (last l); mret a.2.
(** points.rs:130-152, one sample. *)
Definition points_looped (l : list (Z * f32)) (period step : Z) : res f32 :=
  pos ← umod step period;
  match find_from pos l 0 with
  | Some k =>
      a ← unwrap (l !! k); b ← unwrap (l !! Nat.modulo (k + 1) (length l));
      mret (lerp pos a b)
  | None =>
      a ← unwrap (last l); b ← unwrap (l !! Nat.modulo (length l - 1 + 1) (length l));
      let t := fdiv (fsub (f_of_Z pos) (f_of_Z a.1))
                    (fadd (fsub (f_of_Z period) (f_of_Z a.1)) (f_of_Z b.1)) in
      mret (fadd a.2 (fmul t (fsub b.2 a.2)))
  end.
Definition points_step (P : platform) (s : points) : res (points * f32) :=
  v ← (if po_loop s
       then points_looped (po_list s) (as_usize (p_cfg P) (bar_dur (po_bpm s) (po_span s) (po_sr s)))
                          (po_step s)
       else points_once P (po_list s) (po_step s));
  mret (Points (po_list s) (po_span s) (po_bpm s) (po_sr s) (po_step s + 1) (po_loop s) (po_ord s), v).
Definition points_proc (P : platform) (s : points) (ins : inmap) (out : list sig) : res (points * list sig) :=
  match po_list s with
  | [] => Ok (s, out)
  | _ =>
      match scanR (fun s (_ : unit) => points_step P s) s (replicate (p_blk P) tt) with
      | Ok (s', b) => out' ← put0 out b; mret (s', out')
      | Panic => Panic
      end
  end.
(** points.rs:155-174 (no [ResetOrder] arm). *)
Definition points_msg (s : points) (m : msg) : res points :=
  match m with
  | SetToNumber 1 v => Ok (Points (po_list s) v (po_bpm s) (po_sr s) 0 (po_loop s) (po_ord s))
  | SetBPM bpm => Ok (Points (po_list s) (po_span s) bpm (po_sr s) (po_step s) (po_loop s) (po_ord s))
  | _ => o ← ord_msg_keep (po_ord s) m;
         mret (Points (po_list s) (po_span s) (po_bpm s) (po_sr s) (po_step s) (po_loop s) o)
  end.

(** ** synth/pattern_synth.rs and synth/msgsynth.rs *)
(** A voice: first sample, frequency ([synth_list]) and phase ([phase_list]). *)
Record voice := Voice { vo_begin : Z; vo_freq : f32; vo_phase : f32 }.
Definition midi_freq (P : platform) (midi : f32) : f32 :=
  fmul (p_pow2 P (fdiv (fsub midi (f_of_Z 69)) (f_of_Z 12))) (f_of_Z 440).
(** Parameters of one voice. *)
Record vpar := VPar { vp_att : f32; vp_dec : f32; vp_sr : Z }.
Definition vp_n (P : platform) (sr : Z) (t : f32) : Z := as_usize (p_cfg P) (fmul t (f_of_Z sr)).
(** [dur as usize]: (att + dec) * sr. *)
Definition vp_dur (P : platform) (v : vpar) : Z := vp_n P (vp_sr v) (fadd (vp_att v) (vp_dec v)).
(** pattern_synth.rs:88-106 / msgsynth.rs:105-123; [rise pos] says which branch is taken.
    [dur - pos] cannot underflow here. *)
Definition voice_amp (P : platform) (rise : Z -> bool) (v : vpar) (pos : Z) : f32 :=
  if rise pos
  then if vp_n P (vp_sr v) (vp_att v) =? 0 then f0
       else fdiv (f_of_Z pos) (fmul (vp_att v) (f_of_Z (vp_sr v)))
  else if vp_n P (vp_sr v) (vp_dec v) =? 0 then f0
       else fdiv (f_of_Z (vp_dur P v - pos)) (fmul (vp_dec v) (f_of_Z (vp_sr v))).
(** pattern_synth.rs:79-124 / msgsynth.rs:96-141: play all voices, drop finished ones.
    The removals in reverse order amount to keeping the unfinished ones. *)
Fixpoint play_voices (P : platform) (rise : Z -> bool) (v : vpar) (step : Z) (vs : list voice) (acc : f32)
  : list voice * f32 :=
  match vs with
  | [] => ([], acc)
  | x :: vs' =>
      if step - vo_begin x <=? vp_dur P v
      then let o := fsub (fmul (vo_phase x) f2) f1 in
           let x' := Voice (vo_begin x) (vo_freq x) (advance (vp_sr v) (vo_phase x) (vo_freq x)) in
           let acc' := fadd acc (fmul (fmul (voice_amp P rise v (step - vo_begin x)) o)
                                      (f_of_dec false 1 (-1))) in
           let '(r, a) := play_voices P rise v step vs' acc' in (x' :: r, a)
      else play_voices P rise v step vs' acc
  end.

Record psynth := PSynth { ps_voices : list voice; ps_events : list (f32 * f32); ps_sr : Z; ps_step : Z; ps_ord : list nat }.
(** [PatternSynth::new]: attack 0.001, decay 0.1, one cycle of 2 seconds. *)
Definition ps_par (s : psynth) : vpar := VPar (f_of_dec false 1 (-3)) (f_of_dec false 1 (-1)) (ps_sr s).
(** pattern_synth.rs:61, 66-67. *)
Definition ps_bar (P : platform) (s : psynth) : Z :=
  as_usize (p_cfg P) (fmul (fmul f2 f1) (f_of_Z (ps_sr s))).
Definition ps_time (P : platform) (s : psynth) (t : f32) : Z :=
  as_usize (p_cfg P) (fmul (fmul t f2) (f_of_Z (ps_sr s))).
Definition psynth_step (P : platform) (s : psynth) : res (psynth * f32) :=
  vs ← foldM (fun vs ev =>
          r ← umod (ps_step s) (ps_bar P s);
          mret (if r =? ps_time P s ev.1
                then vs ++ [Voice (ps_step s) (midi_freq P ev.2) f0] else vs))
        (ps_voices s) (ps_events s);
  let att_n := vp_n P (ps_sr s) (vp_att (ps_par s)) in
  let '(vs', v) := play_voices P (fun pos => pos <=? att_n) (ps_par s) (ps_step s) vs f0 in
  mret (PSynth vs' (ps_events s) (ps_sr s) (ps_step s + 1) (ps_ord s), v).
Definition psynth_proc (P : platform) (s : psynth) (ins : inmap) (out : list sig) : res (psynth * list sig) :=
  match ins with
  | [] => match scanR (fun s (_ : unit) => psynth_step P s) s (replicate (p_blk P) tt) with
          | Ok (s', b) => out' ← put0 out b; mret (s', out')
          | Panic => Panic
          end
  | _ => Ok (s, out)
  end.
(** pattern_synth.rs:139-150, main/src/util.rs:101-112: "time midi, time midi, ...";
    the two [unwrap]s per event and the parse [unwrap]s panic. *)
Definition ps_event (ev : string) : res (f32 * f32) :=
  match filter (fun x => x <> EmptyString) (split_on " " ev) with
  | a :: b :: _ => x ← unwrap (parse_f32 a); y ← unwrap (parse_f32 b); mret (x, y)
  | _ => Panic
  end.
Definition ps_parse (symbol : string) : res (list (f32 * f32)) :=
  mapR ps_event (split_on "," (sfilter (fun c => negb (Ascii.eqb c "`")) symbol)).
Definition psynth_msg (s : psynth) (m : msg) : res psynth :=
  match m with
  | SetToSymbol 0 t => evs ← ps_parse t; mret (PSynth (ps_voices s) evs (ps_sr s) (ps_step s) (ps_ord s))
  | _ => o ← ord_msg (ps_ord s) m; mret (PSynth (ps_voices s) (ps_events s) (ps_sr s) (ps_step s) o)
  end.

Record msynth := MSynth { ms_voices : list voice; ms_att : f32; ms_dec : f32; ms_events : list (Z * f32);
                          ms_sr : Z; ms_step : Z; ms_ord : list nat }.
Definition ms_par (s : msynth) : vpar := VPar (ms_att s) (ms_dec s) (ms_sr s).
Definition msynth_step (P : platform) (s : msynth) : msynth * f32 :=
  let vs := foldl (fun vs ev => if ms_step s =? ev.1
                                then vs ++ [Voice (ms_step s) (midi_freq P ev.2) f0] else vs)
                  (ms_voices s) (ms_events s) in
  let att_n := vp_n P (ms_sr s) (ms_att s) in
  let '(vs', v) := play_voices P (fun pos => att_n <=? pos) (ms_par s) (ms_step s) vs f0 in
  (MSynth vs' (ms_att s) (ms_dec s) (ms_events s) (ms_sr s) (ms_step s + 1) (ms_ord s), v).
Definition msynth_proc (P : platform) (s : msynth) (ins : inmap) (out : list sig) : res (msynth * list sig) :=
  let '(s', b) := scan (fun s (_ : unit) => msynth_step P s) s (replicate (p_blk P) tt) in
  out' ← put0 out b; mret (s', out').
(** [str::split("=>")]. *)
Fixpoint split_arrow (s : string) : list string :=
  match s with
  | EmptyString => [EmptyString]
  | String "=" (String ">" s') => EmptyString :: split_arrow s'
  | String c s' => match split_arrow s' with
                   | p :: ps => String c p :: ps
                   | [] => [String c EmptyString]
                   end
  end.
(** msgsynth.rs:145-185. *)
Definition msynth_msg (P : platform) (s : msynth) (m : msg) : res msynth :=
  match m with
  | SetToNumber 1 v => Ok (MSynth (ms_voices s) v (ms_dec s) (ms_events s) (ms_sr s) (ms_step s) (ms_ord s))
  | SetToNumber 2 v => Ok (MSynth (ms_voices s) (ms_att s) v (ms_events s) (ms_sr s) (ms_step s) (ms_ord s))
  | SetToSymbol 3 t =>
      match split_arrow (sfilter (fun c => negb (is_space c)) t) with
      | a :: b :: _ =>
          x ← unwrap (parse_f32 a); y ← unwrap (parse_f32 b);
          mret (MSynth (ms_voices s) (ms_att s) (ms_dec s)
                  (ms_events s ++ [(as_usize (p_cfg P) (fmul x (f_of_Z (ms_sr s))), y)])
                  (ms_sr s) (ms_step s) (ms_ord s))
      | _ => Ok s
      end
  | _ => o ← ord_msg (ms_ord s) m;
         mret (MSynth (ms_voices s) (ms_att s) (ms_dec s) (ms_events s) (ms_sr s) (ms_step s) o)
  end.

(** ** sampling/sampler.rs and sampling/psampler.rs *)
(** [(&'static [f32], channels, sample rate)]. *)
Record sampledata := Sample { sd_data : list f32; sd_chan : Z; sd_rate : Z }.
Definition sd_len (d : sampledata) : Z := Z.of_nat (length (sd_data d)).
(** Interpolated read at the fractional index [x], [off] samples into the data:
    sampler.rs:56-63, 80-92.  The weights are as written in the source. *)
Definition sd_interp (P : platform) (d : sampledata) (x : f32) (off : Z) : res f32 :=
  let l := ffloor x in
  let r := fceil x in
  let lp := fsub x l in
  let rp := fsub f1 lp in
  a ← at_ (sd_data d) (as_usize (p_cfg P) l + off);
  b ← at_ (sd_data d) (as_usize (p_cfg P) r + off);
  mret (fadd (fmul a lp) (fmul b rp)).
(** One playing voice at relative position [pos <= 1] adds to (left, right):
    sampler.rs:47-97, psampler.rs:76-126.  [None]: a channel count other than 1 or 2. *)
Definition sd_play (P : platform) (d : sampledata) (len : Z) (pos : f32) (lr : f32 * f32)
  : res (option (f32 * f32)) :=
  let c := p_cfg P in
  if sd_chan d =? 1 then
    endx ← usub c (sd_len d) 1;
    v ← (if feqb pos f0 then at_ (sd_data d) 0
         else if feqb pos f1 then at_ (sd_data d) endx
         else if fgtb pos f0 && fltb pos f1 then sd_interp P d (fmul pos (f_of_Z endx)) 0
         else Ok f0);
    let l := fadd lr.1 v in mret (Some (l, l))
  else if sd_chan d =? 2 then
    (if feqb pos f0 then
       a ← at_ (sd_data d) 0; b ← at_ (sd_data d) len;
       mret (Some (fadd lr.1 a, fadd lr.2 b))
     else if feqb pos f1 then
       l1 ← usub c len 1; e1 ← usub c (sd_len d) 1;
       a ← at_ (sd_data d) l1; b ← at_ (sd_data d) e1;
       mret (Some (fadd lr.1 a, fadd lr.2 b))
     else if fgtb pos f0 && fltb pos f1 then
       l2 ← usub c len 2;
       let x := fmul pos (f_of_Z l2) in
       a ← sd_interp P d x 0; b ← sd_interp P d x (len + 1);
       mret (Some (fadd lr.1 a, fadd lr.2 b))
     else mret (Some lr))
  else Ok None.

(** [playback]: (begin, dur). *)
Record sampler := Sampler { sa_play : list (Z * f32); sa_data : sampledata; sa_len : Z; sa_clock : Z; sa_sr : Z; sa_ord : list nat }.
(** sampler.rs:16-26: division by zero channels and the length of empty data. *)
Definition sampler_new (P : platform) (d : sampledata) (sr : Z) : res sampler :=
  if sd_chan d =? 0 then Panic
  else e ← usub (p_cfg P) (sd_len d) 1; mret (Sampler [] d (sd_len d / sd_chan d) 0 sr []).
Fixpoint sampler_voices (P : platform) (s : sampler) (vs : list (Z * f32)) (lr : f32 * f32)
  : res (list (Z * f32) * (f32 * f32)) :=
  match vs with
  | [] => Ok ([], lr)
  | v :: vs' =>
      let pos := fdiv (f_of_Z (sa_clock s - v.1)) v.2 in
      if fleb pos f1
      then o ← sd_play P (sa_data s) (sa_len s) pos lr;
           r ← sampler_voices P s vs' (default lr o);
           mret (v :: r.1, r.2)
      else sampler_voices P s vs' lr
  end.
(** sampler.rs:36-111, one sample. *)
Definition sampler_step (P : platform) (s : sampler) (x : f32) : res (sampler * (f32 * f32)) :=
  let vs := if fgtb x f0
            then sa_play s ++ [(sa_clock s,
                   fdiv (fdiv (f_of_Z (sa_len s)) x)
                        (fdiv (f_of_Z (sd_rate (sa_data s))) (f_of_Z (sa_sr s))))]
            else sa_play s in
  r ← sampler_voices P s vs (f0, f0);
  mret (Sampler r.1 (sa_data s) (sa_len s) (sa_clock s + 1) (sa_sr s) (sa_ord s), r.2).
Definition sampler_proc (P : platform) (s : sampler) (ins : inmap) (out : list sig) : res (sampler * list sig) :=
  match ins with
  | [p] =>
      m0 ← chan p.2 0;
      match scanR (sampler_step P) s m0 with
      | Ok (s', lrs) => out' ← put01 out lrs.*1 lrs.*2; mret (s', out')
      | Panic => Panic
      end
  | _ => out' ← put01 out (silent P) (silent P); mret (s, out')
  end.
Definition sampler_msg (s : sampler) (m : msg) : res sampler :=
  o ← ord_msg (sa_ord s) m;
  mret (Sampler (sa_play s) (sa_data s) (sa_len s) (sa_clock s) (sa_sr s) o).

Record psampler := PSampler {
  pa_play : list (Z * string * f32); pa_dict : gmap string sampledata; pa_pattern : list (string * f32);
  pa_step : Z; pa_span : f32; pa_cycle : f32; pa_sr : Z; pa_ord : list nat
}.
(** psampler.rs:57-69: voices started at this sample. *)
Definition psampler_start (P : platform) (s : psampler) : res (list (Z * string * f32)) :=
  let bar := as_usize (p_cfg P) (fmul (fmul (pa_cycle s) (pa_span s)) (f_of_Z (pa_sr s))) in
  foldM (fun vs ev =>
     r ← umod (pa_step s) bar;
     if r =? as_usize (p_cfg P) (fmul (fmul ev.2 (pa_cycle s)) (f_of_Z (pa_sr s)))
     then d ← unwrap (pa_dict s !! ev.1);
          if sd_chan d =? 0 then Panic
          else mret (vs ++ [(pa_step s, ev.1,
                 fdiv (fdiv (f_of_Z (sd_len d / sd_chan d)) f1)
                      (fdiv (f_of_Z (sd_rate d)) (f_of_Z (pa_sr s))))])
     else mret vs) (pa_play s) (pa_pattern s).
(** psampler.rs:71-133.  [None]: the [return] at psampler.rs:125. *)
Fixpoint psampler_voices (P : platform) (s : psampler) (vs : list (Z * string * f32)) (lr : f32 * f32)
  : res (option (list (Z * string * f32)) * (f32 * f32)) :=
  match vs with
  | [] => Ok (Some [], lr)
  | v :: vs' =>
      let pos := fdiv (f_of_Z (pa_step s - v.1.1)) v.2 in
      if fleb pos f1
      then d ← unwrap (pa_dict s !! v.1.2);
           o ← sd_play P d (sd_len d / sd_chan d) pos lr;
           match o with
           | None => Ok (None, lr)
           | Some lr' => r ← psampler_voices P s vs' lr';
                         mret (match r.1 with Some l => Some (v :: l) | None => None end, r.2)
           end
      else psampler_voices P s vs' lr
  end.
(** psampler.rs:54-135; [true] once the [return] has been taken: nothing more happens in
    this block and the outputs stay silent. *)
Definition psampler_step (P : platform) (st : psampler * bool) : res ((psampler * bool) * (f32 * f32)) :=
  let '(s, stop) := st in
  if stop : bool then Ok (st, (f0, f0))
  else vs ← psampler_start P s;
       r ← psampler_voices P s vs (f0, f0);
       mret (match r.1 with
             | Some l => (PSampler l (pa_dict s) (pa_pattern s) (pa_step s + 1) (pa_span s) (pa_cycle s) (pa_sr s) (pa_ord s), false)
             | None => (PSampler vs (pa_dict s) (pa_pattern s) (pa_step s) (pa_span s) (pa_cycle s) (pa_sr s) (pa_ord s), true)
             end, r.2).
Definition psampler_proc (P : platform) (s : psampler) (ins : inmap) (out : list sig) : res (psampler * list sig) :=
  match scanR (fun st (_ : unit) => psampler_step P st) (s, false) (replicate (p_blk P) tt) with
  | Ok (st, lrs) => out' ← put01 out lrs.*1 lrs.*2; mret (st.1, out')
  | Panic => Panic
  end.
Definition psampler_msg (s : psampler) (m : msg) : res psampler :=
  o ← ord_msg (pa_ord s) m;
  mret (PSampler (pa_play s) (pa_dict s) (pa_pattern s) (pa_step s) (pa_span s) (pa_cycle s) (pa_sr s) o).
