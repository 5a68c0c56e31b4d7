(** * Props_Literal: numbers of a program text are read as the nearest f32 (C48). *)
From Coq Require Import Reals Lra.
From Flocq Require Import Core.
From Flocq.IEEE754 Require Import BinarySingleNaN.
From Verif Require Export Props_Syntax.
From Verif Require Import FloatR.
From Coq Require Import Lia.
Local Open Scope nat_scope.
Local Open Scope string_scope.
Local Opaque W W1 peg_run.

(** ** The number a numeral stands for *)
Definition digit_of (ch : ascii) : Z :=
  match ch with
  | "0" => 0 | "1" => 1 | "2" => 2 | "3" => 3 | "4" => 4 | "5" => 5 | "6" => 6 | "7" => 7 | "8" => 8 | "9" => 9
  | _ => 0
  end%char%Z.
(** Digits before the point: ten times the digits to the left, plus the digit. *)
Fixpoint whole (left : Z) (s : string) : Z :=
  match s with EmptyString => left | String ch s' => whole (10 * left + digit_of ch) s' end.
(** Digits after the point: a tenth of the digit and of what follows. *)
Fixpoint fraction (s : string) : R :=
  match s with EmptyString => 0%R | String ch s' => ((IZR (digit_of ch) + fraction s') / 10)%R end.
Definition signed (sg : string) (r : R) : R := if String.eqb sg "-" then (- r)%R else r.
Definition numeral (l : literal) : R :=
  signed (l_sign l)
    match l_tail l with
    | None => IZR (whole 0 (l_int l))
    | Some (fp, None) => (IZR (whole 0 (l_int l)) + fraction fp)%R
    | Some (fp, Some (_, es, ed)) =>
        ((IZR (whole 0 (l_int l)) + fraction fp) *
         powerRZ 10 (if String.eqb es "-" then - whole 0 ed else whole 0 ed))%R
    end.

(** ** Mantissa and exponent *)
Lemma digit_of_val ch : is_digit ch = true -> Z.of_N (digit_val ch) = digit_of ch.
Proof.
  destruct ch as [b0 b1 b2 b3 b4 b5 b6 b7].
  destruct b0, b1, b2, b3, b4, b5, b6, b7; intros H; vm_compute in H; try done; vm_compute; reflexivity.
Qed.
Lemma whole_digits s : forall n, digits s -> Z.of_N (digits_val n s) = whole (Z.of_N n) s.
Proof.
  unfold digits. induction s as [|ch s IH]; intros n H; [done|]. cbn [sall] in H. apply andb_prop in H as [H1 H2].
  cbn [digits_val whole]. rewrite IH by done. f_equal. rewrite N2Z.inj_add, N2Z.inj_mul, digit_of_val by done. done.
Qed.
Lemma pow10_ne z : powerRZ 10 z <> 0%R.
Proof. apply powerRZ_NOR. lra. Qed.
Lemma pow10_add a b : powerRZ 10 (a + b) = (powerRZ 10 a * powerRZ 10 b)%R.
Proof. apply powerRZ_add. lra. Qed.
Lemma fraction_digits fp : forall n, digits fp ->
  (IZR (Z.of_N (digits_val n fp)) * powerRZ 10 (- Z.of_nat (String.length fp)) = IZR (Z.of_N n) + fraction fp)%R.
Proof.
  unfold digits. induction fp as [|ch s IH]; intros n H; [simpl; lra|]. cbn [sall] in H. apply andb_prop in H as [H1 H2].
  cbn [digits_val String.length fraction]. rewrite Nat2Z.inj_succ.
  replace (- Z.succ (Z.of_nat (String.length s)))%Z with (- Z.of_nat (String.length s) + - (1))%Z by lia.
  rewrite pow10_add, <- Rmult_assoc, IH by done. rewrite N2Z.inj_add, N2Z.inj_mul, digit_of_val by done.
  rewrite plus_IZR, mult_IZR. simpl (powerRZ 10 (- (1))). change (IZR (Z.of_N 10)) with 10%R. field.
Qed.
Lemma digits_val_app a b n : digits_val n (a ++ b) = digits_val (digits_val n a) b.
Proof. revert n. induction a as [|ch a IH]; intros n; [done|]. rewrite sapp_cons. cbn [digits_val]. apply IH. Qed.
Lemma numeral_parts l : l_ok l -> numeral l = signed (l_sign l) (IZR (Z.of_N (l_mant l)) * powerRZ 10 (l_exp l)).
Proof.
  intros (Hs & Hi & Hne & Ht). unfold numeral, l_mant, l_exp. f_equal.
  destruct (l_tail l) as [[fp [[[e es] ed]|]]|].
  - destruct Ht as (Hf & _ & _ & Hed & _). rewrite digits_val_app, pow10_add, <- Rmult_assoc, fraction_digits by done.
    rewrite (whole_digits (l_int l) 0) by done. f_equal. f_equal. change 0%Z with (Z.of_N 0). rewrite <- (whole_digits ed 0) by done. by destruct (String.eqb es "-").
  - rewrite digits_val_app, fraction_digits by done. by rewrite (whole_digits (l_int l) 0).
  - rewrite sapp_nil_r, (whole_digits (l_int l) 0) by done. simpl. lra.
Qed.

(** ** Correct rounding *)
Lemma pow10_pos z : (0 <= z)%Z -> powerRZ 10 z = IZR (10 ^ z).
Proof.
  intros H. destruct z as [|p|p]; [done| |lia]. unfold powerRZ. by rewrite pow_IZR, positive_nat_Z.
Qed.
(** The f32 nearest to [r] (ties to even), infinite when out of range. *)
Definition nearest (neg : bool) (r : R) (v : f32) : Prop :=
  ((Rabs (rnd r) < big)%R -> fin v /\ fval v = rnd r /\ sign_SF v = neg) /\
  ((big <= Rabs (rnd r))%R -> v = S754_infinity neg).
Lemma sign_B2SF (b : b32) : sign_SF (B2SF b) = Bsign b.
Proof. by destruct b. Qed.
Lemma f_of_dec_nearest s m e : nearest s ((if s then -1 else 1) * (IZR (Z.of_N m) * powerRZ 10 e)) (f_of_dec s m e).
Proof.
  unfold f_of_dec. destruct m as [|p].
  - assert (E : ((if s then -1 else 1) * (IZR (Z.of_N 0) * powerRZ 10 e) = 0)%R) by (simpl; lra). rewrite E.
    split; [intros _; split; [by split|]; split; [by rewrite rnd_0|done]|]. rewrite rnd_0, Rabs_R0. intros H. exfalso. revert H.
    apply Rlt_not_le. apply bpow_gt_0.
  - change (Z.of_N (N.pos p)) with (Z.pos p). destruct (Z.leb_spec 0 e) as [He|He].
    + rewrite pow10_pos by done. assert (H10 : (0 < 10 ^ e)%Z) by (apply Z.pow_pos_nonneg; lia).
      set (q := (10 ^ e)%Z) in *. clearbody q.
      assert (Hq : exists k, (Z.pos p * q = Z.pos k)%Z) by (destruct q; try lia; by eexists). destruct Hq as [k Hk].
      assert (EZ : ((if s then Z.neg p * q else Z.pos p * q) = cond_Zopp s (Z.pos k))%Z) by (destruct s; simpl; lia). rewrite EZ.
      change prec32 with 24%Z; change emax32 with 128%Z.
      assert (ER : ((if s then -1 else 1) * (IZR (Z.pos p) * IZR q) = F2R (Float radix2 (cond_Zopp s (Z.pos k)) 0))%R).
      { unfold F2R. simpl Fnum. simpl bpow. rewrite Rmult_1_r, <- mult_IZR, Hk. destruct s; simpl; [rewrite opp_IZR || idtac|]; change (Z.neg k) with (- Z.pos k)%Z; rewrite ?opp_IZR; lra. }
      rewrite ER. rewrite (normalize_equiv 24 128 _ _).
      pose proof (binary_normalize_correct 24 128 _ _ mode_NE (cond_Zopp s (Z.pos k)) 0 s) as H. cbv zeta in H.
      assert (Hc : Rcompare (F2R (Float radix2 (cond_Zopp s (Z.pos k)) 0)) 0 = if s then Lt else Gt).
      { destruct s; [apply Rcompare_Lt; by apply F2R_lt_0|apply Rcompare_Gt; by apply F2R_gt_0]. }
      split; intros Hb.
      * rewrite Rlt_bool_true in H by exact Hb. destruct H as (H1 & H2 & H3). destruct (b_fin _ H2) as [H4 H5].
        split; [done|]. split; [by rewrite H5, H1|]. rewrite Hc in H3. rewrite sign_B2SF, H3. by destruct s.
      * rewrite Rlt_bool_false in H by exact Hb. rewrite H. unfold binary_overflow. simpl. f_equal. destruct s; [apply Rlt_bool_true; by apply F2R_lt_0|].
        apply Rlt_bool_false. apply Rlt_le. by apply F2R_gt_0.
    + pose proof (Z.pow_pos_nonneg 10 (- e) ltac:(lia) ltac:(lia)) as H10.
      assert (Hq : exists q, (10 ^ (- e) = Z.pos q)%Z) by (destruct (10 ^ (- e))%Z; try lia; by eexists). destruct Hq as [q Hq]. rewrite Hq.
      change (Z.to_pos (Z.pos q)) with q.
      assert (ER : ((if s then -1 else 1) * (IZR (Z.pos p) * powerRZ 10 e) =
        F2R (Float radix2 (cond_Zopp s (Z.pos p)) 0) / F2R (Float radix2 (cond_Zopp false (Z.pos q)) 0))%R).
      { unfold F2R. simpl Fnum. simpl bpow. rewrite !Rmult_1_r.
        replace (powerRZ 10 e) with (/ IZR (Z.pos q))%R.
        - destruct s; simpl; [change (Z.neg p) with (- Z.pos p)%Z; rewrite opp_IZR|]; unfold Rdiv; lra.
        - rewrite <- Hq, <- pow10_pos by lia. rewrite powerRZ_neg'. by rewrite Rinv_inv. }
      rewrite ER. pose proof (Bdiv_correct_aux 24 128 _ _ mode_NE s p 0 false q 0) as H. cbv zeta in H.
      change prec32 with 24%Z; change emax32 with 128%Z. simpl SFdiv.
      destruct (SFdiv_core_binary 24 128 (Z.pos p) 0 (Z.pos q) 0) as [[mz ez] lz]. rewrite (round_aux_equiv 24 128). 
      destruct H as [Hv H]. rewrite Bool.xorb_false_r in *. split; intros Hb.
      * rewrite Rlt_bool_true in H by exact Hb. destruct H as (H1 & H2 & H3). done.
      * rewrite Rlt_bool_false in H by exact Hb. rewrite H. done.
Qed.

Lemma l_value_nearest l : l_ok l -> nearest (String.eqb (l_sign l) "-") (numeral l) (l_value l).
Proof.
  intros Hl. rewrite numeral_parts by done. unfold l_value. pose proof (f_of_dec_nearest (String.eqb (l_sign l) "-") (l_mant l) (l_exp l)) as H.
  unfold signed. destruct (String.eqb (l_sign l) "-"); [|by rewrite Rmult_1_l in H].
  by replace (-1 * (IZR (Z.of_N (l_mant l)) * powerRZ 10 (l_exp l)))%R with (- (IZR (Z.of_N (l_mant l)) * powerRZ 10 (l_exp l)))%R in H by lra.
Qed.

(** ** C48: reading *)

(** Every numeral, after every node that takes a number or a reference: the component carries
    the nearest f32 of the number written, infinite if it is out of range. *)
Theorem C48_literal_nearest c math kw k l g : (kw, k) ∈ one_arg -> l_ok l -> space g ->
  exists ast v, get_ast c math ("o: " ++ kw ++ g ++ l_text l) = Done ast /\ ast !! "o" = Some [k (Num v)] /\
    nearest (String.eqb (l_sign l) "-") (numeral l) v.
Proof.
  intros Hk Hl Hg.
  destruct (C60_spellings_partial c math kw [l_text l] (k (Num (l_value l))) (g ++ l_text l) "" " ") as (ast & E & L); [..|done|done|].
  - apply sp_one_arg; [done|]. constructor. by exists l.
  - assert (Ha : args [l_text l] (g ++ l_text l ++ "")) by (constructor; [done|constructor]). by rewrite sapp_nil_r in Ha.
  - exists ast, (l_value l). split; [done|]. split; [done|]. by apply l_value_nearest.
Qed.
(** In every other position where a number may stand (see [spells]). *)
Theorem C48_number_nearest w v : number w v -> exists l, w = l_text l /\ l_ok l /\ nearest (String.eqb (l_sign l) "-") (numeral l) v.
Proof. intros (l & Hl & -> & ->). exists l. split; [done|]. split; [done|]. by apply l_value_nearest. Qed.
Example C48_case : exists ast v, get_ast c64 no_math "o: mul -2.50e-1" = Done ast /\ ast !! "o" = Some [CMul (Num v)] /\
  fin v /\ fval v = (-1/4)%R.
Proof.
  set (l := Literal "-" "2" (Some ("50", Some ("e"%char, "-", "1")))).
  destruct (C48_literal_nearest c64 no_math "mul" CMul l " ") as (ast & v & E & L & Hn); [seth| |done|].
  - split; [seth|]. split; [done|]. split; [done|]. split; [done|]. split; [by left|]. split; [seth|]. done.
  - exists ast, v. split; [done|]. split; [done|]. assert (En : numeral l = (-1/4)%R) by (unfold numeral, signed; simpl; change (IZR (10 * 0 + 2)) with 2%R; field).
    assert (Er : rnd (-1/4) = (-1/4)%R).
    { apply rnd_fmt. replace (-1/4)%R with (- bpow radix2 (-2))%R by (simpl; lra). apply generic_format_opp, generic_format_bpow. unfold FLT_exp. lia. }
    rewrite En in Hn. destruct Hn as [Hn _]. rewrite Er in Hn. destruct Hn as (F & V & _); [|done].
    pose proof big_16777216. apply Rabs_def1; lra.
Qed.

(** ** Printing *)
Definition digit_char (n : N) : ascii := ascii_of_N (48 + n).
Fixpoint show_N (fuel : nat) (n : N) : string :=
  match fuel with
  | O => ""
  | S f => (if (n <? 10)%N then "" else show_N f (n / 10)) ++ String (digit_char (n mod 10)) ""
  end.
Definition show_nat (n : N) : string := show_N (S (N.size_nat n)) n.
(** [m * 2^e] as a numeral: a whole number if [e >= 0], else [m * 5^-e] and exponent [e]. *)
Definition f32_literal (x : f32) : literal :=
  match x with
  | S754_finite s m e =>
      let sg := if s then "-" else "" in
      match e with
      | Zneg p => Literal sg (show_nat (Npos m * 5 ^ Npos p)) (Some ("", Some ("e"%char, "-", show_nat (Npos p))))
      | _ => Literal sg (show_nat (Npos m * 2 ^ Z.to_N e)) None
      end
  | S754_zero s => Literal (if s then "-" else "") "0" None
  | _ => Literal "" "0" None
  end.
Definition show_f32 (x : f32) : string := l_text (f32_literal x).

Lemma digit_char_ok n : (n < 10)%N -> is_digit (digit_char n) = true /\ digit_val (digit_char n) = n.
Proof.
  intros H. assert (Hn : (n = 0 \/ n = 1 \/ n = 2 \/ n = 3 \/ n = 4 \/ n = 5 \/ n = 6 \/ n = 7 \/ n = 8 \/ n = 9)%N) by lia.
  repeat (destruct Hn as [-> | Hn]; [by vm_compute|]). subst n. by vm_compute.
Qed.
Lemma show_N_ok f n : (n < 10 ^ N.of_nat f)%N -> 0 < f ->
  digits (show_N f n) /\ show_N f n <> "" /\ digits_val 0 (show_N f n) = n.
Proof.
  revert n. induction f as [|f IH]; intros n Hn H0; [lia|]. cbn [show_N].
  assert (Hd : (n mod 10 < 10)%N) by (apply N.mod_lt; done). destruct (digit_char_ok _ Hd) as [D1 D2].
  destruct (N.ltb_spec n 10) as [Hs|Hs].
  - change ("" ++ String (digit_char (n mod 10)) "") with (String (digit_char (n mod 10)) "").
    split; [unfold digits; cbn [sall]; by rewrite D1|]. split; [done|]. cbn [digits_val]. rewrite D2. rewrite N.mod_small by lia. lia.
  - assert (Hq : (n / 10 < 10 ^ N.of_nat f)%N).
    { apply N.div_lt_upper_bound; [done|]. rewrite <- N.pow_succ_r', <- Nat2N.inj_succ. done. }
    destruct f as [|f]; [simpl in Hn; lia|].
    destruct (IH _ Hq ltac:(lia)) as (I1 & I2 & I3). unfold digits in *. rewrite sall_app, I1. split; [cbn [sall]; by rewrite D1|].
    split; [by destruct (show_N (S f) (n / 10))|]. rewrite digits_val_app, I3. cbn [digits_val]. rewrite D2.
    pose proof (N.div_mod n 10 ltac:(done)). lia.
Qed.
Lemma show_nat_ok n : digits (show_nat n) /\ show_nat n <> "" /\ digits_val 0 (show_nat n) = n.
Proof.
  apply show_N_ok; [|lia]. apply N.lt_le_trans with (2 ^ N.of_nat (S (N.size_nat n)))%N.
  - destruct n as [|p]; [done|]. apply N.lt_le_trans with (2 ^ N.size (N.pos p))%N; [apply N.size_gt|]. apply N.pow_le_mono_r; [done|].
    simpl N.size_nat. simpl N.size. assert (N.of_nat (Pos.size_nat p) = N.pos (Pos.size p)) by (induction p; simpl; lia). lia.
  - apply N.pow_le_mono_l. lia.
Qed.

Lemma fin_eq x y : fin x -> fin y -> fval x = fval y -> sign_SF x = sign_SF y -> x = y.
Proof.
  intros (a & -> & Ha & Ea)%fin_b (b & -> & Hb & Eb)%fin_b Hv Hs. rewrite !sign_B2SF in Hs. f_equal.
  apply B2R_Bsign_inj; [done|done|congruence|done].
Qed.
Lemma fin_lt_big x : fin x -> (Rabs (fval x) < big)%R.
Proof. intros (b & -> & Hb & Eb)%fin_b. rewrite <- Eb. apply abs_B2R_lt_emax. Qed.
Lemma f32_literal_ok x : l_ok (f32_literal x).
Proof.
  assert (Hs : forall s : bool, is_sign (if s then "-" else "")) by (intros []; seth).
  destruct x as [s|s| |s m e]; try (split; [apply Hs || seth|done]).
  destruct e as [|p|p]; cbn [f32_literal]; (split; [apply Hs|]).
  - destruct (show_nat_ok (N.pos m * 2 ^ Z.to_N 0)) as (A1 & A2 & _). done.
  - destruct (show_nat_ok (N.pos m * 2 ^ Z.to_N (Z.pos p))) as (A1 & A2 & _). done.
  - destruct (show_nat_ok (N.pos m * 5 ^ N.pos p)) as (A1 & A2 & _). destruct (show_nat_ok (N.pos p)) as (B1 & B2 & _).
    split; [done|]. split; [done|]. cbn. split; [done|]. split; [by left|]. split; [seth|]. done.
Qed.
Lemma f32_literal_value x : fin x -> l_value (f32_literal x) = x.
Proof.
  intros Hx. pose proof (l_value_nearest _ (f32_literal_ok x)) as [Hn _].
  destruct x as [s|s| |s m e]; [by destruct s|by destruct Hx|by destruct Hx|].
  assert (Hsg : String.eqb (l_sign (f32_literal (S754_finite s m e))) "-" = s) by (by destruct s, e).
  assert (Hnum : numeral (f32_literal (S754_finite s m e)) = fval (S754_finite s m e)).
  { rewrite numeral_parts by apply f32_literal_ok. unfold signed. rewrite Hsg. unfold fval, SF2R, F2R. cbn [Fnum Fexp].
    assert (Hm : (IZR (Z.of_N (l_mant (f32_literal (S754_finite s m e)))) * powerRZ 10 (l_exp (f32_literal (S754_finite s m e))) =
      IZR (Z.pos m) * bpow radix2 e)%R).
    { assert (H2 : forall q, (0 <= q)%Z -> IZR (Z.of_N (N.pos m * 2 ^ Z.to_N q)) = (IZR (Z.pos m) * bpow radix2 q)%R).
      { intros q Hq. rewrite N2Z.inj_mul, N2Z.inj_pow, Z2N.id, mult_IZR by done. f_equal. by rewrite <- IZR_Zpower. }
      destruct e as [|p|p]; unfold l_mant, l_exp; cbn [f32_literal l_int l_tail].
      - rewrite sapp_nil_r. destruct (show_nat_ok (N.pos m * 2 ^ Z.to_N 0)) as (_ & _ & ->). rewrite H2 by done. simpl. lra.
      - rewrite sapp_nil_r. destruct (show_nat_ok (N.pos m * 2 ^ Z.to_N (Z.pos p))) as (_ & _ & ->). rewrite H2 by done. simpl powerRZ. lra.
      - rewrite sapp_nil_r. destruct (show_nat_ok (N.pos m * 5 ^ N.pos p)) as (_ & _ & ->).
        destruct (show_nat_ok (N.pos p)) as (_ & _ & E). rewrite E. clear E.
        match goal with |- context [powerRZ 10 ?z] => change z with (Z.opp (Z.pos p)) end.
        rewrite N2Z.inj_mul, N2Z.inj_pow, mult_IZR, Rmult_assoc. f_equal. change (bpow radix2 (Z.neg p)) with (bpow radix2 (Z.opp (Z.pos p))). rewrite (powerRZ_neg' 10 (Z.pos p)), pow10_pos by done.
        rewrite bpow_opp, <- IZR_Zpower by done. change (Z.of_N (N.pos p)) with (Z.pos p).
        change (Z.of_N 5) with 5%Z. change 10%Z with (5 * 2)%Z. rewrite Z.pow_mul_l, mult_IZR. change (radix_val radix2) with 2%Z.
        assert (IZR (5 ^ Z.pos p) <> 0%R) by (apply not_0_IZR, Z.pow_nonzero; lia).
        assert (IZR (2 ^ Z.pos p) <> 0%R) by (apply not_0_IZR, Z.pow_nonzero; lia). field. done. }
    rewrite Hm. destruct s; cbn [cond_Zopp]; [change (- Z.pos m)%Z with (Z.opp (Z.pos m)); rewrite opp_IZR; lra|done]. }
  rewrite Hnum, Hsg in Hn. rewrite (rnd_fmt _ (fin_fmt _ Hx)) in Hn. destruct (Hn (fin_lt_big _ Hx)) as (F & V & S).
  by apply fin_eq.
Qed.
Theorem C48_written_exactly x : fin x -> number (show_f32 x) x.
Proof. intros Hx. exists (f32_literal x). split; [apply f32_literal_ok|]. split; [done|]. by rewrite f32_literal_value. Qed.

(** ** C48: printing a program and reading it back *)
Definition show_arg (a : numref) : string := match a with Num x => show_f32 x | NRef w => w end.
Definition show_word (l : list numref) : list string := map show_arg l.
Fixpoint spaced (ws : list string) : string := match ws with [] => "" | w :: ws => " " ++ w ++ spaced ws end.
Definition show_event (e : evval * f32) : string :=
  match e.1 with EvNum v => show_f32 v | EvSym w => w end ++ "@" ++ show_f32 e.2.
Definition show_events (evs : evinner) : string :=
  match evs with [] => dquote ++ dquote | e :: l => dquote ++ "" ++ show_event e ++ spaced (map show_event l) ++ dquote end.
Definition show_pattern (evs : evinner) (span : f32) : string := show_events evs ++ "(" ++ show_f32 span ++ ")".
Definition show_code (code : string) : string := String "096" (code ++ String "096" "").
Definition show_time (x : timelist) : string :=
  match tl_time x with
  | Some (DMs d) => show_f32 (tl_bar x) ++ "" ++ "+" ++ "" ++ show_f32 d ++ "_ms"
  | Some (DSec d) => show_f32 (tl_bar x) ++ "" ++ "+" ++ "" ++ show_f32 d ++ "_s"
  | _ => show_f32 (tl_bar x)
  end.
Definition show_point (p : timelist * f32) : string := show_time p.1 ++ "" ++ "=>" ++ "" ++ show_f32 p.2.
Fixpoint show_points (l : list (timelist * f32)) : string :=
  match l with [] => "" | p :: l => show_point p ++ " " ++ show_points l end.
(** The words of a node; [seq], [choose], [eval] and points that are not a loop of one bar
    are not printed (for [seq] and [choose] see [C48_every_program_has_a_text_partial]). *)
Definition show_words (k : component) : list string :=
  match k with
  | CSin a => ["sin"; show_arg a] | CSaw a => ["saw"; show_arg a] | CSqu a => ["squ"; show_arg a]
  | CTri a => ["tri"; show_arg a] | CMul a => ["mul"; show_arg a] | CAdd a => ["add"; show_arg a]
  | CPan a => ["pan"; show_arg a] | COnepole a => ["onepole"; show_arg a] | CDelayms a => ["delayms"; show_arg a]
  | CImp a => ["imp"; show_arg a] | CBd a => ["bd"; show_arg a] | CSn a => ["sn"; show_arg a] | CHh a => ["hh"; show_arg a]
  | CSpeed v => ["speed"; show_f32 v] | CConstSig v => ["constsig"; show_f32 v] | CPlate v => ["plate"; show_f32 v]
  | CEnvPerc a b => ["envperc"; show_f32 a; show_f32 b] | CSawSynth a b => ["sawsynth"; show_f32 a; show_f32 b]
  | CSquSynth a b => ["squsynth"; show_f32 a; show_f32 b] | CTriSynth a b => ["trisynth"; show_f32 a; show_f32 b]
  | CRhpf a b => ["rhpf"; show_arg a; show_f32 b] | CApfmsGain a b => ["apfmsgain"; show_arg a; show_f32 b]
  | CLpf (SigNum v) b => ["lpf"; show_f32 v; show_f32 b] | CLpf (SigRef w) b => ["lpf"; w; show_f32 b]
  | CDelayn (Usz n) => ["delayn"; show_nat (Z.to_N n)] | CDelayn (URef w) => ["delayn"; w]
  | CNoise n => ["noise"; show_nat (Z.to_N n)]
  | CAdsr a b d e => ["adsr"; show_f32 a; show_f32 b; show_f32 d; show_f32 e]
  | CReverb a b d e f => ["reverb"; show_f32 a; show_f32 b; show_f32 d; show_f32 e; show_f32 f]
  | CGet w => ["get"; w] | CBalance a b => ["balance"; a; b] | CMix ws => "mix" :: ws
  | CArrange l => "arrange" :: map show_arg l
  | CSp w => ["sp"; w] | CMsgSynth w a b => ["msgsynth"; w; show_f32 a; show_f32 b]
  | CLpf (SigEvent e) b => ["lpf"; show_events e; show_f32 b]
  | CLpf (SigPattern e span) b => ["lpf"; show_pattern e span; show_f32 b]
  | CPSampler (PsEvent e) => ["psampler"; show_events e]
  | CPSampler (PsPattern e span) => ["psampler"; show_pattern e span]
  | CPatternSynth w v => ["psynth"; w; show_f32 v]
  | CMeta code => ["meta"; show_code code] | CExpr code => ["expr"; show_code code]
  | CAdc n => ["adc"; show_nat (Z.to_N n)]
  | CPoints pts _ _ => ["[" ++ "" ++ show_points pts ++ "]" ++ "" ++ "!"]
  | _ => []
  end.
(** Components that can come from a program: finite numbers, names, symbols, words of the
    machine. *)
Definition arg_ok (a : numref) : Prop := match a with Num x => fin x | NRef w => free_name w end.
Definition num_ok (a : numref) : Prop := match a with Num x => fin x | NRef _ => False end.
Definition word_ok (c : cfg) (n : Z) : Prop := (0 <= n <= umax c)%Z.
Inductive pairs_ok : list numref -> Prop :=
| pairs_nil : pairs_ok []
| pairs_cons w v l : name w -> fin v -> pairs_ok l -> pairs_ok (NRef w :: Num v :: l).
Definition events_ok (evs : evinner) : Prop :=
  evs <> [] /\ Forall (fun e => match e.1 with EvNum v => fin v | EvSym w => symbol w end /\ fin e.2) evs.
Definition code_ok (code : string) : Prop :=
  sall (fun ch => negb (Ascii.eqb ch "096" || Ascii.eqb ch "092")) code = true.
Definition time_ok (x : timelist) : Prop :=
  fin (tl_bar x) /\ match tl_time x with None => True | Some (DMs d) | Some (DSec d) => fin d | Some (DBar _) => False end.
Definition points_ok (l : list (timelist * f32)) : Prop := Forall (fun p => time_ok p.1 /\ fin p.2) l.
Definition printable (c : cfg) (k : component) : Prop :=
  match k with
  | CSin a | CSaw a | CSqu a | CTri a | CMul a | CAdd a | CPan a | COnepole a | CDelayms a => arg_ok a
  | CImp a | CBd a | CSn a | CHh a => num_ok a
  | CSpeed v | CConstSig v | CPlate v => fin v
  | CEnvPerc a b | CSawSynth a b | CSquSynth a b | CTriSynth a b => fin a /\ fin b
  | CRhpf a b | CApfmsGain a b => arg_ok a /\ fin b
  | CLpf (SigNum v) b => fin v /\ fin b
  | CLpf (SigRef w) b => free_name w /\ fin b
  | CDelayn (Usz n) | CNoise n => word_ok c n
  | CDelayn (URef w) | CGet w => free_name w
  | CAdsr a b d e => fin a /\ fin b /\ fin d /\ fin e
  | CReverb a b d e f => fin a /\ fin b /\ fin d /\ fin e /\ fin f
  | CBalance a b => name a /\ name b
  | CMix ws => ws <> [] /\ Forall name ws
  | CArrange l => l <> [] /\ pairs_ok l
  | CSp w => symbol w
  | CMsgSynth w a b => symbol w /\ fin a /\ fin b
  | CLpf (SigEvent e) b => events_ok e /\ fin b
  | CLpf (SigPattern e span) b => events_ok e /\ fin span /\ fin b
  | CPSampler (PsEvent e) => events_ok e
  | CPSampler (PsPattern e span) => events_ok e /\ fin span
  | CPatternSynth w v => (exists code, code_word w code) /\ fin v
  | CMeta code | CExpr code => code_ok code
  | CAdc n => word_ok c n /\ (n < 2 ^ 32)%Z
  | CPoints pts span loop => points_ok pts /\ span = f1 /\ loop = true
  | _ => False
  end.
Definition show_node (k : component) : string :=
  match show_words k with [] => "" | w :: ws => w ++ spaced ws end.
Fixpoint show_more (ks : list component) : string :=
  match ks with [] => "" | k :: ks => " >> " ++ show_node k ++ show_more ks end.
Definition show_line (l : string * list component) : string :=
  match l.2 with [] => "" | k :: ks => l.1 ++ ": " ++ show_node k ++ show_more ks end.
Fixpoint show_program (ls : list (string * list component)) : string :=
  match ls with [] => "" | l :: ls => show_line l ++ eol ++ show_program ls end.

Lemma args_spaced ws : args ws (spaced ws).
Proof. induction ws as [|w ws IH]; [constructor|]. cbn [spaced]. by constructor. Qed.
Lemma arg_printed a : arg_ok a -> argument (show_arg a) a.
Proof. destruct a as [x|w]; intros H; constructor; [by apply C48_written_exactly|done]. Qed.
Lemma nat_printed c n : word_ok c n -> natural c (show_nat (Z.to_N n)) n.
Proof.
  intros [H1 H2]. destruct (show_nat_ok (Z.to_N n)) as (A & B & E). exists "", (show_nat (Z.to_N n)).
  split; [seth|]. split; [done|]. split; [done|]. split; [done|]. rewrite E, Z2N.id by done. done.
Qed.
Lemma arrange_pairs l : pairs_ok l -> exists q : list (string * string * f32),
  Forall (fun x => name x.1.1 /\ number x.1.2 x.2) q /\ List.concat (map (fun x => [NRef x.1.1; Num x.2]) q) = l /\
  List.concat (map (fun x => [x.1.1; x.1.2]) q) = map show_arg l.
Proof.
  induction 1 as [|w v l Hw Hv _ (q & H1 & H2 & H3)]; [exists []; by split_and!|].
  exists ((w, show_f32 v, v) :: q). split; [constructor; [|done]; split; [done|by apply C48_written_exactly]|].
  cbn [map List.concat app fst snd]. by rewrite H2, H3.
Qed.
Lemma event_printed e : match e.1 with EvNum v => fin v | EvSym w => symbol w end /\ fin e.2 -> item_word (show_event e) e.
Proof. destruct e as [[w|v] x]; cbn [fst snd]; intros [H1 H2]; constructor; try done; by apply C48_written_exactly. Qed.
Lemma events_printed evs : events_ok evs -> quoted (show_events evs) evs.
Proof.
  intros [Hn H]. destruct evs as [|e l]; [done|]. inversion_clear H as [|? ? H1 H2].
  exists "", (show_event e), e, (map (fun e => (show_event e, e)) l), (spaced (map show_event l)).
  assert (E : map fst (map (fun e => (show_event e, e)) l) = map show_event l) by (rewrite map_map; by apply map_ext).
  split; [done|]. split; [by apply event_printed|]. split; [|split; [rewrite E; apply args_spaced|split; [done|]]].
  - apply Forall_map. eapply Forall_impl; [exact H2|]. intros e' He. by apply event_printed.
  - rewrite map_map. cbn [snd]. by rewrite map_id.
Qed.
Lemma pattern_printed evs span : events_ok evs -> fin span -> pattern_word (show_pattern evs span) evs span.
Proof. intros H1 H2. exists (show_events evs), (show_f32 span). split; [by apply events_printed|]. split; [done|]. right. by apply C48_written_exactly. Qed.
Lemma code_printed code : code_ok code -> code_word (show_code code) code.
Proof. done. Qed.
Lemma one_fin : fin f1. Proof. by vm_compute. Qed.
Lemma one_val : fval f1 = 1%R. Proof. unfold fval, SF2R, F2R. simpl. lra. Qed.
Lemma finite_side (s : bool) m e : (if s then fval (S754_finite s m e) < 0 else 0 < fval (S754_finite s m e))%R.
Proof.
  unfold fval, SF2R, F2R. cbn [Fnum Fexp]. pose proof (bpow_gt_0 radix2 e) as Hb.
  destruct s; cbn [cond_Zopp]; [pose proof (IZR_lt (- Z.pos m) 0 ltac:(lia))|pose proof (IZR_lt 0 (Z.pos m) ltac:(lia))]; nra.
Qed.
Lemma fmul_one x : fin x -> fmul f1 x = x.
Proof.
  intros Hx. destruct x as [s|s| |s m e]; [by destruct s|by destruct Hx|by destruct Hx|].
  destruct (fmul_ok f1 (S754_finite s m e) one_fin Hx) as [F V].
  { rewrite one_val, Rmult_1_l, (rnd_fmt _ (fin_fmt _ Hx)). by apply fin_lt_big. }
  rewrite one_val, Rmult_1_l, (rnd_fmt _ (fin_fmt _ Hx)) in V. apply fin_eq; [done|done|done|].
  pose proof (finite_side s m e) as Hnz. destruct (fmul f1 (S754_finite s m e)) as [s'|s'| |s' m' e'] eqn:E; [|by destruct F|by destruct F|].
  - change (fval (S754_zero s')) with 0%R in V. destruct s; lra.
  - cbn [sign_SF]. pose proof (finite_side s' m' e') as Hnz'.
    destruct s, s'; try done; lra.
Qed.
Lemma time_printed x : time_ok x -> time_word (show_time x) x.
Proof.
  destruct x as [b [[d|d|d]|]]; intros [H1 H2]; cbn [tl_bar tl_time] in *; unfold show_time; cbn [tl_time tl_bar]; try done.
  - rewrite <- (fmul_one d H2) at 2. apply (tw_offset _ _ _ _ f1); [left; by apply C48_written_exactly|done|done|by left|by apply C48_written_exactly|first [by left|by right]].
  - rewrite <- (fmul_one d H2) at 2. apply (tw_offset _ _ _ _ f1); [left; by apply C48_written_exactly|done|done|by left|by apply C48_written_exactly|first [by left|by right]].
  - constructor. left. by apply C48_written_exactly.
Qed.
Lemma points_printed l : points_ok l -> point_list (show_points l) l.
Proof.
  induction 1 as [|p l [H1 H2] _ IH]; [constructor|]. cbn [show_points]. apply pl_more; try done.
  exists (show_time p.1), "", "", (show_f32 p.2). split_and!; try done; [by apply time_printed|by apply C48_written_exactly].
Qed.
Lemma node_printed c math k : printable c k -> node_text c math (show_node k) k.
Proof.
  intros H. assert (Hs : exists kw ws, show_words k = kw :: ws /\ spells c math kw ws k).
  { destruct k; cbn [printable] in H; try done; cbn [show_words];
      try (do 2 eexists; split; [reflexivity|]; solve
        [ eapply sp_one_arg; [seth|by apply arg_printed]
        | eapply sp_one_num; [seth|by apply C48_written_exactly]
        | destruct H as [H1 H2]; eapply sp_two_num; [seth|by apply C48_written_exactly..]
        | destruct H as [H1 H2]; eapply sp_arg_and_num; [seth|by apply arg_printed|by apply C48_written_exactly]
        | by apply sp_noise; [seth|apply nat_printed]
        | by apply sp_get
        | by apply sp_sp; [seth|] ]).
    - destruct H as (H1 & -> & ->). do 2 eexists. split; [reflexivity|]. by apply sp_points; [|apply points_printed|].
    - destruct p as [n|w]; (do 2 eexists; split; [reflexivity|]); [by apply sp_delayn, nat_printed|by apply sp_delayn_ref].
    - destruct p as [v|]; [|done]. do 2 eexists. split; [reflexivity|]. eapply (sp_one_num c math "imp" (fun v => CImp (Num v))); [seth|by apply C48_written_exactly].
    - destruct H as [H1 H2]. destruct (arrange_pairs _ H2) as (q & Q1 & Q2 & Q3). do 2 eexists. split; [reflexivity|].
      rewrite <- Q3. rewrite <- Q2. apply sp_arrange; [|done]. intros ->. by simpl in Q2; subst.
    - destruct H as [H1 H2]. do 2 eexists. split; [reflexivity|]. by apply sp_mix.
    - destruct H as [H1 H2]. do 2 eexists. split; [reflexivity|]. by apply sp_adc; [apply nat_printed|].
    - destruct p as [v|]; [|done]. do 2 eexists. split; [reflexivity|]. eapply (sp_one_num c math "bd" (fun v => CBd (Num v))); [seth|by apply C48_written_exactly].
    - destruct p as [v|]; [|done]. do 2 eexists. split; [reflexivity|]. eapply (sp_one_num c math "sn" (fun v => CSn (Num v))); [seth|by apply C48_written_exactly].
    - destruct p as [v|]; [|done]. do 2 eexists. split; [reflexivity|]. eapply (sp_one_num c math "hh" (fun v => CHh (Num v))); [seth|by apply C48_written_exactly].
    - destruct H as (H1 & H2 & H3). do 2 eexists. split; [reflexivity|]. by apply sp_msgsynth; [|apply C48_written_exactly..].
    - destruct H as [[code Hc] H2]. do 2 eexists. split; [reflexivity|]. eapply sp_psynth; [seth|exact Hc|by apply C48_written_exactly].
    - destruct sg as [v|w|e|e span]; (do 2 eexists; split; [reflexivity|]).
      + destruct H as [H1 H2]. by apply sp_lpf_num; apply C48_written_exactly.
      + destruct H as [H1 H2]. by apply sp_lpf_ref; [|apply C48_written_exactly].
      + destruct H as [H1 H2]. by apply sp_lpf_event; [apply events_printed|apply C48_written_exactly].
      + destruct H as (H1 & H2 & H3). by apply sp_lpf_pattern; [apply pattern_printed|apply C48_written_exactly].
    - destruct p as [e|e span]; (do 2 eexists; split; [reflexivity|]).
      + by apply sp_psampler_event, events_printed.
      + destruct H as [H1 H2]. by apply sp_psampler, pattern_printed.
    - destruct H as [H1 H2]. do 2 eexists. split; [reflexivity|]. by apply sp_balance.
    - destruct H as (H1 & H2 & H3 & H4 & H5). do 2 eexists. split; [reflexivity|]. by apply sp_reverb; apply C48_written_exactly.
    - destruct H as (H1 & H2 & H3 & H4). do 2 eexists. split; [reflexivity|]. by apply sp_adsr; apply C48_written_exactly.
    - do 2 eexists. split; [reflexivity|]. by apply sp_meta; [seth|apply code_printed].
    - do 2 eexists. split; [reflexivity|]. by apply sp_expr, code_printed. }
  destruct Hs as (kw & ws & E & S). exists kw, ws, (spaced ws). split; [done|]. split; [apply args_spaced|].
  unfold show_node. by rewrite E.
Qed.
Lemma more_printed c math ks : Forall (printable c) ks -> more_nodes c math (show_more ks) ks.
Proof.
  induction 1 as [|k ks Hk _ IH]; [constructor|]. cbn [show_more].
  constructor; [|by apply node_printed|done]. apply (joint_here " " "" "" " "); try done. seth.
Qed.
(** Programs of named, non-empty chains of printable nodes: printed and read back, every
    name has the components it had. *)
Theorem C48_print_and_read_partial c math (ls : list (string * list component)) :
  Forall (fun l => name l.1 /\ l.2 <> [] /\ Forall (printable c) l.2) ls ->
  exists ast, get_ast c math (show_program ls) = Done ast /\ forall n, ast !! n = last_named n ls.
Proof.
  intros H. apply C53_layout_partial. exists "". eexists. split; [reflexivity|]. split; [done|].
  induction H as [|[n ks] ls (Hn & Hne & Hk) _ IH]; [constructor|]. cbn [show_program fst snd] in *.
  change (program c math (show_line (n, ks) ++ eol ++ show_program ls) ((n, ks) :: ls)).
  apply prog_line; [| |done|].
  - destruct ks as [|k ks]; [done|]. unfold show_line. cbn [fst snd]. inversion_clear Hk as [|? ? Hk1 Hks].
    exists "", " ", (show_node k), k, (show_more ks), ks. split_and!; try done; [by apply node_printed|by apply more_printed].
  - exists "", "", "", eol. split_and!; try done; [seth|]. rewrite <- (sapp_nil_r eol). apply (breaks_cons "" ""); [done|constructor].
  - right. right. done.
Qed.

(** Sequences of groups of notes, choices among integers and loops of any length are no
    function of their meaning, but they have a text as well. *)
Definition note_ok (c : cfg) (n : note) : Prop :=
  match n with Note k => word_ok c k | Rest => True | RefNote s => exists ch, is_lower ch = true /\ s = String "~" (String ch "") end.
Inductive writable (c : cfg) (math : string -> res f32) : component -> Prop :=
| wr_printed k : printable c k -> writable c math k
| wr_seq gs : gs <> [] -> Forall (fun g => g <> [] /\ Forall (note_ok c) g) gs -> writable c math (CSeq (seq_events gs))
| wr_choose vs : vs <> [] -> Forall (fun v => exists neg n, v = f_of_dec neg n 0) vs -> writable c math (CChoose vs)
| wr_points pts w v : points_ok pts -> span_word w -> math ("1" ++ w) = Ok v -> writable c math (CPoints pts v true).

Lemma note_written c n : note_ok c n -> exists w, note_word c w n /\ begins (fun ch => negb (is_digit ch)) w.
Proof.
  destruct n as [k| |r]; intros H.
  - exists ("+" ++ show_nat (Z.to_N k)). split; [|by eexists _, _]. constructor. destruct H as [H1 H2].
    destruct (show_nat_ok (Z.to_N k)) as (A & B & E). exists "+", (show_nat (Z.to_N k)). split; [seth|].
    split; [done|]. split; [done|]. split; [done|]. rewrite E, Z2N.id by done. done.
  - exists "_". split; [constructor|by eexists _, _].
  - destruct H as (ch & Hc & ->). eexists. split; [by constructor|by eexists _, _].
Qed.
Lemma group_written c g : g <> [] -> Forall (note_ok c) g -> exists w, group_word c w g /\ begins (fun ch => negb (is_digit ch)) w.
Proof.
  intros Hn H. induction H as [|n g Hx Hg IH]; [done|]. destruct (note_written c n Hx) as (w & Hw & Hb). destruct g as [|n' g].
  - exists w. split; [by constructor|done].
  - destruct IH as (w' & Hw' & ch' & s' & -> & Hc'); [done|]. exists (w ++ String ch' s'). split.
    + constructor; [done|done|]. intros k ch s _ [= <- <-]. by apply negb_true_iff in Hc'.
    + destruct Hb as (ch & s & -> & Hc). rewrite sapp_cons. by eexists _, _.
Qed.
Lemma node_written c math k : writable c math k -> exists txt, node_text c math txt k.
Proof.
  intros [k' H|gs Hn H|vs Hn H|pts w v H1 H2 H3].
  - exists (show_node k'). by apply node_printed.
  - assert (Hl : exists l : list (string * list note), Forall (fun x => group_word c x.1 x.2) l /\ map snd l = gs).
    { clear Hn. induction H as [|g gs [Hg1 Hg2] _ (l & Hl & <-)]; [by exists []|].
      destruct (group_written c g Hg1 Hg2) as (w & Hw & _). exists ((w, g) :: l). split; [by constructor|done]. }
    destruct Hl as (l & Hl & <-). exists ("seq" ++ spaced (map fst l)), "seq", (map fst l), (spaced (map fst l)).
    split; [|split; [apply args_spaced|done]]. apply sp_seq; [|done]. intros ->. by apply Hn.
  - assert (Hl : exists l : list (string * f32), Forall (fun x => integer x.1 x.2) l /\ map snd l = vs).
    { clear Hn. induction H as [|v vs (neg & n & ->) _ (l & Hl & <-)]; [by exists []|].
      destruct (show_nat_ok n) as (A & B & E).
      pose (q := Literal (if neg then "-" else "") (show_nat n) None).
      exists ((l_text q, l_value q) :: l). split; [constructor; [|done]|].
      - exists q. split; [|by split_and!]. split; [destruct neg; seth|by split_and!].
      - cbn [map snd]. f_equal. unfold l_value, l_mant, l_exp. cbn [q l_sign l_int l_tail]. rewrite sapp_nil_r, E. by destruct neg. }
    destruct Hl as (l & Hl & <-). exists ("choose" ++ spaced (map fst l)), "choose", (map fst l), (spaced (map fst l)).
    split; [|split; [apply args_spaced|done]]. apply sp_choose; [|done]. intros ->. by apply Hn.
  - eexists _, _, [], "". split; [apply (sp_points_span c math "" (show_points pts) pts "" w v ""); try done; by apply points_printed|].
    split; [constructor|reflexivity].
Qed.
Lemma more_written c math ks : Forall (writable c math) ks -> exists txt, more_nodes c math txt ks.
Proof.
  induction 1 as [|k ks Hk _ (t1 & IH)]; [exists ""; constructor|]. destruct (node_written c math k Hk) as (t0 & H0).
  eexists. apply (more_cons c math " >> " t0 k t1 ks); [|done|done]. apply (joint_here " " "" "" " "); try done. seth.
Qed.
Theorem C48_every_program_has_a_text_partial c math (ls : list (string * list component)) :
  Forall (fun l => name l.1 /\ l.2 <> [] /\ Forall (writable c math) l.2) ls ->
  exists txt ast, get_ast c math txt = Done ast /\ forall n, ast !! n = last_named n ls.
Proof.
  intros H. cut (exists txt, program c math txt ls).
  { intros [txt Ht]. exists txt. apply C53_layout_partial. exists "", txt. by split_and!. }
  induction H as [|[n ks] ls (Hn & Hne & Hk) _ (rest & IH)]; [exists ""; constructor|]. cbn [fst snd] in *.
  destruct ks as [|k ks]; [done|]. inversion_clear Hk as [|? ? Hk1 Hks]. destruct (node_written c math k Hk1) as (t1 & H1).
  destruct (more_written c math ks Hks) as (t2 & H2). eexists. apply (prog_line c math (n ++ "" ++ ":" ++ " " ++ t1 ++ t2) (n, k :: ks) eol rest ls).
  - exists "", " ", t1, k, t2, ks. by split_and!.
  - exists "", "", "", eol. split_and!; try done; [seth|]. rewrite <- (sapp_nil_r eol). apply (breaks_cons "" ""); [done|constructor].
  - done.
  - right. right. done.
Qed.
Example C48_text_case : Forall (writable c64 no_math)
  [CSeq (seq_events [[Note 60; Note 62]; [Rest; RefNote "~a"]]); CChoose [f_of_dec true 3 0; f_of_dec false 40 0];
   CPSampler (PsPattern [(EvSym "'bd'", f0); (EvSym "'sn'", fhalf)] f2); CPoints [(TimeList fhalf (Some (DMs f2)), f1)] f1 true].
Proof.
  constructor; [|constructor; [|constructor; [|constructor; [|constructor]]]].
  - constructor; [done|]. constructor; [|constructor; [|constructor]].
    + split; [done|]. constructor; [by vm_compute|]. constructor; [by vm_compute|constructor].
    + split; [done|]. constructor; [done|]. constructor; [|constructor]. by exists "a"%char.
  - constructor; [done|]. constructor; [by eexists _, _|]. constructor; [by eexists _, _|constructor].
  - constructor. cbn [printable]. split; [split; [done|]|by vm_compute]. constructor; [|constructor; [|constructor]]; cbn [fst snd].
    + split; [|by vm_compute]. exists "bd". split_and!; [done|done|by left].
    + split; [|by vm_compute]. exists "sn". split_and!; [done|done|by left].
  - constructor. cbn [printable]. split; [|done]. constructor; [|constructor]. split; [split|]; by vm_compute.
Qed.
Example C48_print_case : exists ks, Forall (printable c64) ks /\ ks <> [] /\ name "~a" /\
  show_program [("~a", ks)] = "~a: sin ~b >> mul -781250000000000000000000.e-24 >> delayn 100" ++ eol.
Proof.
  exists [CSin (NRef "~b"); CMul (Num (fneg (f_of_dec false 78125 (-5)))); CDelayn (Usz 100)].
  split; [|split; [done|split; [by apply (name_tilde _ "a" "")|]]].
  - constructor; [|constructor; [|constructor; [|constructor]]].
    + exists "~". split; [|done]. split; [seth|]. exists "b"%char, "", "". split_and!; try done. seth.
    + by vm_compute.
    + split; by vm_compute.
  - vm_compute. reflexivity.
Qed.
