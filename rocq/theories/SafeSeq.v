(** * SafeSeq: a sequence that follows a source of its speed. *)
From Verif Require Export SafeNet.
From Verif Require Import WeightProofs BlockProofs Props_Signal Props_Inputs.
From Coq Require Import Lia.
Local Open Scope nat_scope.

Lemma scanR_ok_in {S A B} (I : S -> Prop) (f : S -> A -> res (S * B)) s xs :
  (forall s x, x ∈ xs -> I s -> exists s' y, f s x = Ok (s', y) /\ I s') -> I s -> exists s' ys, scanR f s xs = Ok (s', ys) /\ I s'.
Proof.
  revert s. induction xs as [|x xs IH]; intros s Hf Hs; cbn [scanR]; [by exists s, []|].
  destruct (Hf s x ltac:(by left) Hs) as (s1 & y & -> & H1). destruct (IH s1) as (s2 & ys & -> & H2); [|done|by exists s2, (y :: ys)].
  intros s0 x0 Hx. apply Hf. by right.
Qed.
Lemma foldM_ok_in {A B} (f : A -> B -> res A) a l : (forall a x, x ∈ l -> exists a', f a x = Ok a') -> exists a', foldM f a l = Ok a'.
Proof.
  revert a. induction l as [|x l IH]; intros a Hf; cbn [foldM]; [by eexists|]. destruct (Hf a x ltac:(by left)) as [a' ->].
  apply IH. intros a0 x0 Hx. apply Hf. by right.
Qed.
Lemma in_id_in ins i bs : in_id ins i = Ok bs -> (i, bs) ∈ ins.
Proof.
  induction ins as [|p ins IH]; cbn [in_id]; [done|]. destruct (Nat.eqb_spec p.1 i) as [E|_].
  - intros [= <-]. subst i. rewrite <- surjective_pairing. by left.
  - intros H. right. by apply IH.
Qed.
Lemma pos_not_zero x : fgtb x f0 = true -> feqb x f0 = false.
Proof. destruct x as [|[]| |[]]; try done; cbn; discriminate. Qed.

Section seq.
  Context (P : platform).
  (** The speed that a sequence reads from the block of its first source. *)
  Definition asks (b : list sig) : option f32 :=
    match b with (x :: y :: _) :: _ => if fgtb x f0 && feqb y f0 then Some x else None | _ => None end.
  Definition pace_ok (bpm : f32) (sr : Z) (b : list sig) : Prop :=
    forall x, asks b = Some x -> as_usize (p_cfg P) (bar_length bpm sr x) <> 0%Z.
  (** Sources that never ask for a bar shorter than one sample. *)
  Definition paces (bpm : f32) (sr : Z) (st : gnode P) : Prop :=
    match st with
    | Simple (NSpeed s) => as_usize (p_cfg P) (bar_length bpm sr (sp_val s)) <> 0%Z
    | Simple (NConst _) => True
    | Simple (NImp _) => as_usize (p_cfg P) (bar_length bpm sr f1) <> 0%Z
    | _ => False
    end.
  Lemma put0_head out (b : sig) o : put0 out b = Ok o -> exists r, o = b :: r.
  Proof. destruct out; [done|]. intros [= <-]. by eexists. Qed.
  Lemma paces_proc bpm sr st ins b st' b' : paces bpm sr st -> gproc P st ins b = Ok (st', b') -> paces bpm sr st' /\ pace_ok bpm sr b'.
  Proof.
    destruct st as [n|]; [|done]. intros Hp (n' & H & ->)%wrap_inv. destruct n; try contradiction; cbn [sproc] in H; apply wrap_inv in H as (s' & H & ->);
      cbn [paces] in *; unfold pace_ok.
    - split; [done|]. unfold csig_proc in H. destruct (put0 b _) as [o|] eqn:E; [|done]. cbn in H. injection H as <- <-. apply put0_head in E as [r ->].
      intros x. cbn [asks]. destruct (p_blk P) as [|[|k]]; try done. cbn [replicate]. destruct (fgtb (cs_val s) f0) eqn:E; [|done].
      by rewrite (pos_not_zero _ E).
    - split; [done|]. unfold imp_proc in H. destruct (scanR _ _ _) as [[s1 o]|] eqn:E; [|done].
      assert (Ho : Forall (fun v => v = f1 \/ v = f0) o).
      { revert E. generalize s, (replicate (p_blk P) tt), o. clear. intros s l. revert s. induction l as [|[] l IH]; intros s o; cbn [scanR]; [by intros [= <- <-]|].
        unfold imp_step at 1. rs. destruct (umod _ _) as [r|]; [|done]. cbn. destruct (scanR _ _ l) as [[s2 o2]|] eqn:E; [|done]. intros [= <- <-].
        constructor; [destruct (r =? 0)%Z; [by left|by right]|]. by eapply IH. }
      destruct (put0 b o) as [o'|] eqn:E'; [|done]. cbn in H. injection H as <- <-. apply put0_head in E' as [r ->].
      intros x. cbn [asks]. destruct o as [|x0 [|y o]]; try done. destruct (fgtb x0 f0 && feqb y f0) eqn:Eb; [|done]. intros [= <-].
      inversion Ho as [|? ? [->| ->] _]; subst; [done|]. discriminate Eb.
    - unfold spd_proc in H. destruct (silent P) as [|v0 l] eqn:El; [done|]. destruct (put0 b _) as [o|] eqn:E; [|done]. cbn in H. injection H as <- <-.
      split; [done|]. apply put0_head in E as [r ->]. intros x. cbn [asks]. destruct l as [|y l]; [done|].
      destruct (_ && _); [|done]. by intros [= <-].
  Qed.

  (** The sequence finds what it looks up, whether it is given a speed or not. *)
  Definition finds (s : seqr) (ids : list nat) : Prop :=
    forall ev name, ev ∈ sq_events s -> ev.2 = URef name ->
      exists q x y, sq_order s !! name = Some q /\ sq_ord s !! q = Some x /\ x ∈ ids /\ sq_ord s !! S q = Some y /\ y ∈ ids.
  Definition seq_fixed (s : seqr) := (sq_events s, sq_order s, sq_ord s, sq_bpm s, sq_sr s).
  Lemma look_ok s ins ids has idx name q x y : ins_full P ins -> ins.*1 ≡ₚ ids -> idx < p_blk P ->
    sq_order s !! name = Some q -> sq_ord s !! q = Some x -> x ∈ ids -> sq_ord s !! S q = Some y -> y ∈ ids ->
    exists v, seq_look s ins has idx name = Ok v.
  Proof.
    intros Hf Hi Hidx Hq Hx Hxi Hy Hyi. unfold seq_look. rewrite Hq. cbn [unwrap]. rs.
    assert (exists bs, in_ord ins (sq_ord s) (q + (if has : bool then 1 else 0)) = Ok bs /\ fulls P bs) as (bs & -> & Hbs).
    { unfold in_ord. rewrite <- Hi in Hxi, Hyi. destruct has.
      - rewrite Nat.add_1_r, Hy. destruct (in_id_ok ins y Hyi) as [bs Hb]. exists bs. split; [done|]. by eapply in_id_full.
      - rewrite Nat.add_0_r, Hx. destruct (in_id_ok ins x Hxi) as [bs Hb]. exists bs. split; [done|]. by eapply in_id_full. }
    destruct (chan_ok P bs Hbs) as (b & -> & Hb). destruct (lookup_lt_is_Some_2 b idx) as [v Hv]; [lia|]. rewrite Hv. by eexists.
  Qed.
  Lemma seq_led s ins ids out u bs : 1 < p_blk P -> out <> [] -> ins_full P ins -> ins.*1 ≡ₚ ids -> u ∈ ids -> sq_ord s !! 0 = Some u ->
    in_id ins u = Ok bs -> pace_ok (sq_bpm s) (sq_sr s) bs -> finds s ids -> seq_bar P s <> 0%Z ->
    exists s' out', seq_proc P s ins out = Ok (s', out') /\ seq_fixed s' = seq_fixed s /\ seq_bar P s' <> 0%Z.
  Proof.
    intros Hblk Ho Hf Hi Hu Hord Hbs Hpace Hfind Hbar. unfold seq_proc. destruct ins as [|p0 ins]; [done|]. rs. set (all := p0 :: ins) in *.
    unfold in_ord at 1. rewrite Hord, Hbs. pose proof (in_id_full P all u bs Hf Hbs) as Hfb. destruct (chan_ok P bs Hfb) as (b & Hc & Hb). rewrite Hc.
    destruct b as [|x [|y b]]; cbn [length] in Hb; try lia. cbn [unwrap lookup list_lookup].
    assert (Hasks : asks bs = if fgtb x f0 && feqb y f0 then Some x else None).
    { unfold chan in Hc. destruct bs; [done|]. cbn in Hc. injection Hc as ->. reflexivity. }
    set (has := fgtb x f0 && feqb y f0) in *.
    assert (E : (if fgtb x f0 then Ok (feqb y f0) else Ok false) = Ok has) by (unfold has; by destruct (fgtb x f0)).
    rewrite E. clear E. set (s1 := seq_set s (if has then x else sq_speed s) (sq_step s)).
    assert (H1 : as_usize (p_cfg P) (bar_length (sq_bpm s1) (sq_sr s1) (sq_speed s1)) <> 0%Z).
    { cbn. destruct has eqn:Eh; [apply Hpace; by rewrite Hasks|exact Hbar]. }
    set (bar := bar_length (sq_bpm s1) (sq_sr s1) (sq_speed s1)) in *.
    match goal with |- context [scanR ?f s1 ?l] => destruct (scanR_ok_in (fun t => seq_fixed t = seq_fixed s /\ sq_speed t = sq_speed s1) f s1 l) as (s2 & o & -> & [H2 H3]) end.
    - intros t idx Hidx [Ht Hsp]. apply elem_of_seq in Hidx. unfold seq_sample.
      match goal with |- context [foldM ?f ?a ?l] => destruct (foldM_ok_in f a l) as [v Hv]; [|rewrite Hv] end.
      + intros a ev Hev. cbv beta. rewrite umod_ok by exact H1. rs. match goal with |- context [(?l =? ?r)%Z] => destruct (l =? r)%Z end; [|by eexists]. destruct (ev.2) as [n|name] eqn:En; [by eexists|].
        unfold seq_fixed in Ht. injection Ht as T1 T2 T3 T4 T5. rewrite T1 in Hev.
        destruct (Hfind ev name Hev En) as (q & x1 & y1 & Hq & Hx & Hxi & Hy & Hyi). rewrite <- T2 in Hq. rewrite <- T3 in Hx, Hy.
        destruct (look_ok t all ids has idx name q x1 y1 Hf Hi ltac:(lia) Hq Hx Hxi Hy Hyi) as [w ->]. by eexists.
      + do 2 eexists. split; [reflexivity|]. split; [exact Ht|exact Hsp].
    - split; reflexivity.
    - destruct (put0_ok out o Ho) as [o' ->]. exists s2, o'. split; [reflexivity|]. split; [exact H2|].
      unfold seq_fixed in H2. injection H2 as T1 T2 T3 T4 T5. unfold seq_bar. rewrite T4, T5, H3. exact H1.
  Qed.
End seq.

(** ** What a sequence of a running program looks up *)
Section net.
  Context (P : platform) (get : string -> outcome (gmap string (list component))).
  Context (Hrel : debug (p_cfg P) = false) (Hblk : 0 < p_blk P) (Humax : (16777216 <= umax (p_cfg P))%Z).
  Notation L := (glang P get).

  Definition ev_J (tr : list msg) (c : component) (st : gnode P) : Prop :=
    match c with
    | CSeq evs => exists s, st = Simple (NSeq s) /\ forall ev name, ev ∈ sq_events s -> ev.2 = URef name -> name ∈ component_refs (CSeq evs)
    | _ => True
    end.
  Lemma seq_fixed_keep s ins out s' out' : seq_proc P s ins out = Ok (s', out') -> seq_fixed s' = seq_fixed s.
  Proof.
    unfold seq_proc. destruct ins as [|p ins].
    - match goal with |- context [scanR ?f s ?l] => destruct (scanR f s l) as [[s1 b]|] eqn:E; [|done] end.
      apply (scanR_keeps seq_fixed) in E.
      + rs. destruct (put0 out b); [|done]. by intros [= <- <-].
      + intros s0 x s2 b0. rs. destruct (seq_sample _ _ _ _ _); [|done]. by intros [= <- <-].
    - rs. destruct (in_ord _ _ _) as [pb|]; [|done]. destruct (chan pb 0) as [p0|]; [|done]. destruct (p0 !! 0) as [v0|]; [|done]. cbn [unwrap].
      match goal with |- match ?x with _ => _ end = _ -> _ => destruct x as [has|]; [|done] end.
      match goal with |- context [scanR ?f ?s1 ?l] => destruct (scanR f s1 l) as [[s2 b]|] eqn:E; [|done] end.
      apply (scanR_keeps seq_fixed) in E.
      + destruct (put0 out b); [|done]. by intros [= <- <-].
      + intros s0 x s3 b0. destruct (seq_sample _ _ _ _ _); [|done]. by intros [= <- <-].
  Qed.
  Lemma ev_msgs tr tr' c ms (st st' : gnode P) : ev_J tr c st -> foldM (gmsg P) st ms = Ok st' -> ev_J tr' c st'.
  Proof.
    revert st. induction ms as [|m ms IH]; intros st H; cbn [foldM]; [by intros [= <-]|].
    destruct (gmsg P st m) as [st1|] eqn:E; [|done]. apply IH. destruct c; try done.
    destruct H as (s & -> & H). cbn [gmsg smsg] in E. unfold wrapm in E. destruct (seq_msg s m) as [s'|] eqn:E'; [|done]. injection E as <-.
    exists s'. split; [done|]. assert (sq_events s' = sq_events s) as ->; [|exact H]. revert E'. unfold seq_msg. rs.
    destruct m; try (by intros [= <-]); destruct (ord_msg _ _); try done; by intros [= <-].
  Qed.
  Lemma ev_tracked blk e : tamely L blk e -> tracked L ev_J e.
  Proof.
    apply tamely_tracked; [apply glang_ok|..].
    - intros ev c w refs sh t k i st Hmk Hf. eapply (ev_msgs [] _ c _ w.1); [|exact Hf].
      destruct c; try exact I. cbn in Hmk. injection Hmk as <- <-. eexists. split; [reflexivity|]. cbn [sq_events]. intros [x y] name He Hn. cbn [snd] in Hn. subst y.
      cbn [component_refs]. apply elem_of_list_In, in_concat. exists [name]. split; [|by left].
      apply in_map_iff. exists (x, URef name). split; [done|]. by apply elem_of_list_In.
    - intros tr a b st0 sh t k i st Ha Hab Hf. eapply (ev_msgs tr); [|exact Hf].
      destruct b; try exact I; destruct a; try discriminate Hab. destruct Ha as (s & -> & Ha). exists s. split; [done|].
      by rewrite <- (component_eqb_refs _ _ Hab).
    - intros tr c st m st' H _ Hm. eapply (ev_msgs tr _ c [m]); [exact H|]. cbn [foldM].
      change (gmsg P st m = Ok st') in Hm. by rewrite Hm.
    - intros tr c st ins b st' b' H Hp. destruct c; try exact I. destruct H as (s & -> & H). cbn [nproc glang gproc sproc] in Hp.
      assert (Hp' : wrap Simple (wrap (@NSeq P) (seq_proc P s ins b)) = Ok (st', b')) by exact Hp. clear Hp.
      apply wrap_inv in Hp' as (n' & Hp & ->). apply wrap_inv in Hp as (s' & Hp & ->). exists s'. split; [done|].
      apply seq_fixed_keep in Hp. unfold seq_fixed in Hp. injection Hp as -> _ _ _ _. exact H.
  Qed.

  Section one.
    Context (blk : Z) (e : engine L) (p : gmap string (list component)) (k : string) (j : nat) (evs : list (f32 * usizeref)) (v : nat) (st : gnode P) (b : list sig).
    Notation c := (CSeq evs).
    Context (Ht : tamely L blk e) (Hp : en_ast L e = Some p) (Hpl : placed L (en_info L e) p k (S j) c v) (Hw : node_weight (en_graph L e) v = Some (st, b)).
    Notation ids := (input_ids (en_graph L e) v).
    Theorem seq_finds : NoDup (component_refs c) -> Forall no_dots (component_refs c) -> k ∉ component_refs c ->
      exists s m, st = Simple (NSeq s) /\ owner (en_info L e) m k j /\ sq_ord s !! 0 = Some m /\ m ∈ ids /\ finds s ids.
    Proof.
      intros Hnd Hdots Hk. destruct (ev_tracked blk e Ht p k (S j) c v (st, b) Hp Hpl Hw) as (_ & _ & _ & (s & Hst & Hev)). cbn [fst] in Hst. subst st.
      destruct (owner_pred P get Hblk blk e p k (S j) c v Ht Hp Hpl j eq_refl) as (m & Hm & Hmv).
      assert (Hmi : m ∈ ids).
      { apply (ids_feeds P get blk e p k (S j) c v Ht Hp Hpl). split; [|done]. left. by exists j. }
      exists s, m. split; [done|]. split; [done|].
      destruct (decide (component_refs c = [])) as [Hnil|Hne].
      { destruct (apt_nil P get Hrel Hblk blk e p k (S j) c v _ b Ht Hp Hpl Hw Hnil) as (_ & H1 & H2). specialize (H1 ltac:(lia)).
        destruct (H2 (sq_ord s) eq_refl H1 0 ltac:(lia)) as (x & Hx & Hxi). assert (x = m) as ->.
        { destruct ids as [|y [|? ?]]; cbn in H1; try lia. apply elem_of_list_singleton in Hxi, Hmi. congruence. }
        split; [done|]. split; [done|]. intros ev name He Hn. pose proof (Hev ev name He Hn) as Hin. rewrite Hnil in Hin. by apply elem_of_nil in Hin. }
      destruct (input_list P get blk e p k (S j) c v _ b (sq_ord s) Ht Hp Hpl Hw Hne Hnd eq_refl) as (sh & Ho).
      destruct (pred_spec P get blk e p k j c v Ht Hp Hpl) as (m' & Hm' & Epr). rewrite (owner_same P get e k m' m j Hm' Hm) in Epr. rewrite Epr in Ho.
      assert (Hall : forall x, x ∈ sq_ord s -> x ∈ ids).
      { intros x. rewrite Ho. cbn [app]. rewrite elem_of_cons, elem_of_list_bind. intros [->|(r & Hx & Hr)]; [done|].
        destruct (plain_target P get blk e p k (S j) c v r sh Ht Hp Hpl Hr) as (u & Hu & Htar); [rewrite Forall_forall in Hdots; by apply Hdots|].
        rewrite Htar in Hx. apply elem_of_list_singleton in Hx as ->.
        apply (ids_feeds P get blk e p k (S j) c v Ht Hp Hpl). split.
        - right. exists r, r. split; [exact Hr|]. split; [|exact Hu]. unfold refers. rewrite plain_ref; [done|]. rewrite Forall_forall in Hdots. by apply Hdots.
        - intros ->. destruct (tamely_inv _ (glang_ok P get) _ _ Ht) as (He & _ & _). destruct Hpl as (cs & _ & _ & Hv).
          destruct Hu as (is & His & Hl). rewrite last_lookup in Hl.
          destruct (ei_inj _ _ He v r (pred (length is)) k (S j) ltac:(by exists is) Hv) as [-> _]. done. }
      split; [by rewrite Ho|]. split; [done|]. intros ev name He Hn. pose proof (Hev ev name He Hn) as Hin.
      destruct (C13_seq_references_partial P get blk e p k (S j) evs v _ b Ht Hp Hpl Hw Hnd Hdots) as (s' & Hs' & Hr).
      injection Hs' as <-. destruct (Hr name Hin) as (q & y & Hq & _ & Hy).
      destruct (lookup_lt_is_Some_2 (sq_ord s) q) as [x Hx]; [apply lookup_lt_Some in Hy; lia|].
      exists q, x, y. split_and!; [done|done| |done|].
      - by eapply Hall, elem_of_list_lookup_2.
      - by eapply Hall, elem_of_list_lookup_2.
    Qed.
  End one.
End net.
