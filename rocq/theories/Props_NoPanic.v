(** * C62, positive part: programs that can be played for ever. *)
From Verif Require Import SafeSeq WeightProofs BlockProofs Props_Signal Props_Choose Props_External Props_Blocks Props_Sampler.
From Coq Require Import Lia.
Local Open Scope nat_scope.

Section nopanic.
  Context (P : platform) (get : string -> outcome (gmap string (list component))).
  Context (Hrel : debug (p_cfg P) = false) (Hblk : 0 < p_blk P) (Humax : (16777216 <= umax (p_cfg P))%Z).
  Notation L := (glang P get).

  (** A sequence after a component that never asks it for a bar shorter than one sample. *)
  Definition follows (e : engine L) (k : string) (i : nat) (c : component) (v : nat) : Prop :=
    exists evs j m, c = CSeq evs /\ i = S j /\ 1 < p_blk P /\
      NoDup (component_refs c) /\ Forall no_dots (component_refs c) /\ k ∉ component_refs c /\ owner (en_info L e) m k j /\
      forall s b st b', node_weight (en_graph L e) v = Some (Simple (NSeq s), b) -> node_weight (en_graph L e) m = Some (st, b') ->
        paces P (sq_bpm s) (sq_sr s) st /\ pace_ok P (sq_bpm s) (sq_sr s) b'.
  (** Every component that is heard is [steady], or a sequence that [follows], or an arrangement that
      [arranges] other chains, and its node is [ready]. *)
  Definition settled (e : engine L) (p : gmap string (list component)) : Prop :=
    forall k i c v, placed L (en_info L e) p k i c v -> heard L e v ->
      (steady c i \/ follows e k i c v \/ arranges k c) /\ forall st b, node_weight (en_graph L e) v = Some (st, b) -> ready P st.
  (** Input blocks are as long as the blocks of the engine, and the engine was not reset. *)
  Definition fits (blk : Z) (e : engine L) (ins : list sig) : Prop :=
    ins = [] \/ (unreset P get blk e /\ Forall (fun s => length s = p_blk P) ins).

  Lemma written blk e ins : tamely L blk e -> fits blk e ins -> exists e1, write_input L e ins = Ok e1 /\
    (forall n st b, node_weight (en_graph L e1) n = Some (st, b) -> roomy P n st b /\ exists b0, node_weight (en_graph L e) n = Some (st, b0) /\ (b = b0 \/ st = Simple NPass)) /\
    (forall n, live (en_graph L e) n -> live (en_graph L e1) n).
  Proof.
    intros Ht Hf. pose proof (reachable_roomy P get blk e (tamely_reachable _ _ _ Ht)) as Hr.
    destruct Hf as [->|[Hu Hl]].
    - exists e. split_and!; [done| |done]. intros n st b Hn. split; [by apply (Hr n (st, b))|]. exists b. split; [done|by left].
    - destruct (unreset_holds P get blk e Hu) as (m & b0 & b1 & Hh).
      destruct (write_input_input P get e m b0 b1 ins Hh Hl) as (e1 & E1 & H1). exists e1. destruct Hh as (Hi & Hw & _).
      assert (Hsame : forall n, n <> m -> node_weight (en_graph L e1) n = node_weight (en_graph L e) n).
      { intros n Hnm. eapply write_input_node; [exact E1|]. intros (ids & Hids & Hn0). rewrite Hi in Hids. injection Hids as <-. by injection Hn0 as ->. }
      split_and!; [done| |].
      2: { intros n Hn. destruct (decide (n = m)) as [->|Hnm]; [|unfold live; by rewrite Hsame]. destruct H1 as (_ & Hw1 & _). by eexists. }
      intros n st b Hn. destruct (decide (n = m)) as [->|Hnm].
      + destruct H1 as (_ & Hw1 & Hl0 & Hl1 & _).
        assert (Hx : Some (st, b) = Some (Simple NPass, [default b0 (ins !! 0); default b1 (ins !! 1)])) by (etransitivity; [symmetry; exact Hn|exact Hw1]).
        injection Hx as -> ->. split; [|eexists; split; [exact Hw|by right]]. split; [|discriminate]. split_and!; [done| |].
        * split; [done|]. by repeat constructor.
        * intros ->. destruct (Hr 0 _ Hw) as [(_ & _ & H) _]. destruct (H eq_refl) as [H' _]. discriminate H'.
      + rewrite Hsame in Hn by done. split; [by apply (Hr n (st, b))|]. exists b. split; [done|by left].
  Qed.

  Lemma heard_node blk e p n : tamely L blk e -> en_ast L e = Some p -> heard L e n ->
    n = en_dest L e \/ (exists k i c, placed L (en_info L e) p k i c n) \/ en_info L e !! input_name = Some [n].
  Proof.
    intros Ht Hp Hh. destruct (tamely_inv L (glang_ok P get) _ _ Ht) as (He & Hal & Hm).
    assert (Hcase : n = en_dest L e \/ in_table (en_info L e) n).
    { inversion Hh as [|? y ? Hed _]; subst; [by left|]. right. apply (Hm p Hp) in Hed as [(k & i & Hu & _)|[(k & _ & Hu & _)|(k & i & c & r & k' & _ & _ & _ & Hu)]].
      - by exists k, i.
      - destruct Hu as (ids & Hk & Hl). rewrite last_lookup in Hl. by exists k, (pred (length ids)), ids.
      - destruct Hu as (ids & Hk & Hl). rewrite last_lookup in Hl. by exists k', (pred (length ids)), ids. }
    destruct Hcase as [->|(k & i & ids & Hk & Hi)]; [by left|]. right. assert (Hold : old_ast L e = p) by (unfold old_ast; by rewrite Hp).
    destruct (p !! k) as [cs|] eqn:Ec.
    - left. destruct (al_len _ _ Hal k cs ltac:(by rewrite Hold)) as (ids' & Hk' & Hlen). rewrite Hk in Hk'. injection Hk' as <-.
      destruct (lookup_lt_is_Some_2 cs i) as [c Hc]; [rewrite <- Hlen; by eapply lookup_lt_Some|]. exists k, i, c, cs. split_and!; [done|done|]. by exists ids.
    - right. pose proof (al_only _ _ Hal k ids Hk ltac:(by rewrite Hold)) as ->. destruct (al_input _ _ Hal ids Hk) as [m ->].
      destruct i; [|done]. by injection Hi as ->.
  Qed.

  Section demand.
    Context (e : engine L) (p : gmap string (list component)).
    (** The tempo and rate of the sequences that read their speed from [u]. *)
    Definition demand (u : nat) (bpm : f32) (sr : Z) : Prop :=
      exists k j evs v s b, placed L (en_info L e) p k (S j) (CSeq evs) v /\ heard L e v /\ follows e k (S j) (CSeq evs) v /\
        owner (en_info L e) u k j /\ node_weight (en_graph L e) v = Some (Simple (NSeq s), b) /\ sq_bpm s = bpm /\ sq_sr s = sr.
    Definition led (st : gnode P) (ids : list nat) : Prop :=
      exists s u, st = Simple (NSeq s) /\ 1 < p_blk P /\ sq_ord s !! 0 = Some u /\ u ∈ ids /\ finds s ids /\ demand u (sq_bpm s) (sq_sr s).
    Definition fixed (n : nat) (st : gnode P) : Prop :=
      forall s, st = Simple (NSeq s) -> exists s0 b0, node_weight (en_graph L e) n = Some (Simple (NSeq s0), b0) /\ seq_fixed s = seq_fixed s0.
    Lemma demand_met u bpm sr st b : demand u bpm sr -> node_weight (en_graph L e) u = Some (st, b) -> paces P bpm sr st /\ pace_ok P bpm sr b.
    Proof.
      intros (k & j & evs & v & s & b0 & _ & _ & (evs' & j' & m & _ & Hj & _ & _ & _ & _ & Hm & H) & Hu & Hv & <- & <-) Hw. injection Hj as <-.
      assert (m = u) as -> by exact (owner_same P get e k m u j Hm Hu). exact (H s b0 st b Hv Hw).
    Qed.
  End demand.

  Theorem C62_next_block_plays_partial blk e p shs ins :
    tamely L blk e -> en_ast L e = Some p -> settled e p -> fits blk e ins ->
    exists e' out, next_block L blk shs e ins = Ok (e', out) /\ en_ast L e' = Some p /\ settled e' p.
  Proof.
    intros Ht Hp Hset Hf. destruct (tamely_inv L (glang_ok P get) _ _ Ht) as (He & Hal & Hm).
    destruct (reachable_full P get blk e (tamely_reachable _ _ _ Ht)) as [Hd0 _].
    destruct (written blk e ins Ht Hf) as (e1 & E1 & Hst & Hlv). pose proof (write_input_frame L _ _ _ E1) as (Fa & Fi & Fd & _ & Fe).
    assert (Hre : forall u v, reaches (en_graph L e1) u v <-> reaches (en_graph L e) u v).
    { intros u v. unfold reaches. split; apply rtc_subrel; intros x y; unfold edge; by rewrite Fe. }
    assert (Hids : forall n, input_ids (en_graph L e1) n = input_ids (en_graph L e) n) by (intros n; by apply input_ids_edges).
    set (R := fun (n : nat) (st : gnode P) (b : list sig) => roomy P n st b /\
      (reaches (en_graph L e1) n (en_dest L e1) -> ready P st /\
         (gsturdy P st (input_ids (en_graph L e1) n) \/ led e p st (input_ids (en_graph L e1) n))) /\
      (forall bpm sr, demand e p n bpm sr -> paces P bpm sr st /\ pace_ok P bpm sr b) /\ fixed e n st).
    destruct (process_ok R (gproc P) shs (en_graph L e1) (en_dest L e1)) as (g & Ep & Hall & Hge & Hlive).
    - intros n [st b] Hn. destruct (Hst n st b Hn) as [Hroom (b0 & Hn0 & Hb)]. split; [exact Hroom|]. split; [|split].
      3: { intros s Hs. cbn [fst] in Hs. subst st. exists s, b0. split; [exact Hn0|reflexivity]. }
      2: { intros bpm sr Hdm. destruct (demand_met e p n bpm sr st b0 Hdm Hn0) as [H1 H2]. split; [exact H1|]. cbn [snd fst] in *.
           destruct Hb as [->| ->]; [exact H2|contradiction H1]. }
      rewrite Hre, Fd, Hids. intros Hh.
      destruct (heard_node blk e p n Ht Hp Hh) as [->|[(k & i & c & Hpl)|Hin]].
      + destruct Hroom as [(_ & _ & H) _]. destruct (H Hd0) as [Hx _]. cbn [fst snd] in *. subst st. split; [exact I|left; exact I].
      + destruct (Hset k i c n Hpl Hh) as [Hs Hr]. cbn [fst]. specialize (Hr _ _ Hn0). split; [exact Hr|]. destruct Hs as [Hs|[Hs|Hs]].
        * left. eapply steady_sturdy; [exact Hrel|exact Hblk|exact Humax|exact Ht|exact Hp|exact Hpl|exact Hn0|exact Hs|exact Hr].
        * right. pose proof Hs as (evs & j & m & -> & -> & H1 & Hnd & Hdt & Hk & Hmo & _).
          destruct (seq_finds P get Hrel Hblk blk e p k j evs n st b0 Ht Hp Hpl Hn0 Hnd Hdt Hk) as (s & m' & -> & Hm' & Ho & Hmi & Hfi).
          exists s, m'. split_and!; try done. exists k, j, evs, n, s, b0. split_and!; done.
        * left. eapply arranges_sturdy; [exact Hrel|exact Hblk|exact Ht|exact Hp|exact Hpl|exact Hn0|exact Hs|exact Hr].
      + pose proof (tamely_input_pass P get blk e Ht n Hin _ Hn0) as Hx. cbn [fst] in *. subst st. split; [exact I|left; exact I].
    - intros u v Huv. assert (Huv' : edge (en_graph L e) u v) by (unfold edge; pose proof (eq_sym Fe) as Fe'; refine (eq_ind_r (fun l => (u, v) ∈ l) Huv Fe')). clear Huv. rename Huv' into Huv. destruct (proj2 (proj2 (ei_wf _ _ He)) u v Huv). split; by apply Hlv.
    - rewrite Fd. apply Hlv, (ei_live _ _ He). by left.
    - intros n st i b st' b' Hh [[(Hw & Hfu & Hz) Hwd] (Hrs & Hdm & Hfix)] Hins Hpi Hpr. destruct (Hrs Hh) as [Hr Hg].
      assert (Hif : ins_full P i) by (eapply Forall_impl; [exact Hins|]; by intros q (s & ((_ & ? & _) & _) & _)).
      destruct (gproc_full P st i b st' b' Hw Hfu Hif Hpr) as [Hw' Hfu']. pose proof (gproc_length _ _ _ _ _ _ Hpr) as Hlen.
      pose proof (wide_proc P st i b st' b' Hpr) as Hwide. split; [|split; [|split]].
      + split; [split_and!; [exact Hw'|exact Hfu'|]|rewrite Hwide, Hlen; exact Hwd].
        intros Hn. destruct (Hz Hn) as [-> Hl]. split; [|lia]. cbn [gproc sproc] in Hpr. destruct (sum2_proc P i b); [|done]. by injection Hpr as <- _.
      + intros _. destruct Hg as [Hg|Hg].
        * destruct (gsturdy_proc P st _ i b st' b' Hg ltac:(done) Hpr) as [Hg' _]. split; [|left; exact Hg'].
          eapply ready_proc; [exact Hrel|exact Hr| |exact Hpr]. intros Hq. destruct st as [n'|]; [|done].
          destruct n'; try discriminate Hq. destruct Hg as [Hnil _]. assert (Hpi' : i.*1 ≡ₚ []) by (etransitivity; [exact Hpi|]; refine (eq_ind_r (fun l => l ≡ₚ []) (Permutation_refl []) Hnil)). by apply Permutation_nil_r, fmap_nil_inv in Hpi'.
        * destruct Hg as (s & u & -> & H1 & Ho & Hu & Hfi & Hd).
          assert (Hui : u ∈ i.*1) by (by rewrite Hpi). destruct (in_id_ok i u Hui) as [bs Hbs].
          assert (Hpc : pace_ok P (sq_bpm s) (sq_sr s) bs).
          { pose proof (in_id_in _ _ _ Hbs) as Hin. unfold R_ins in Hins. rewrite Forall_forall in Hins. destruct (Hins _ Hin) as (stu & _ & _ & Hx & _). by apply Hx. }
          destruct (seq_led P s i _ b u bs H1 (proj1 Hfu) Hif Hpi Hu Ho Hbs Hpc Hfi Hr) as (s' & o' & Es & Hfx' & Hbar').
          cbn [gproc sproc] in Hpr. rewrite Es in Hpr. cbn [wrap] in Hpr. injection Hpr as <- <-. split; [exact Hbar'|]. right.
          pose proof Hfx' as Hfx2. unfold seq_fixed in Hfx2. injection Hfx2 as T1 T2 T3 T4 T5.
          exists s', u. split_and!; try done.
          -- by rewrite T3.
          -- unfold finds. rewrite T1, T2, T3. exact Hfi.
          -- by rewrite T4, T5.
      + intros bpm sr Hd. destruct (Hdm bpm sr Hd) as [H1 _]. exact (paces_proc P bpm sr st i b st' b' H1 Hpr).
      + intros s' ->. destruct st as [nd|]; cbn [gproc] in Hpr; apply wrap_inv in Hpr as (nd' & Hpr & Heq); [|discriminate Heq]. injection Heq as <-.
        pose proof (tag_proc _ _ _ _ _ _ Hpr) as Htg. destruct nd; try discriminate Htg. cbn [sproc] in Hpr. apply wrap_inv in Hpr as (s2 & Hpr & Heq). injection Heq as <-.
        rewrite (seq_fixed_keep P _ _ _ _ _ Hpr). by apply Hfix.
    - intros n st b i Hh [[(Hw & Hfu & Hz) Hwd] (Hrs & _ & _)] Hpi Hins. destruct (Hrs Hh) as [Hr Hg].
      assert (Hif : ins_full P i) by (eapply Forall_impl; [exact Hins|]; by intros q (s & ((_ & ? & _) & _) & _)).
      destruct Hg as [Hg|Hg]; [eapply (gproc_ok P Hblk); [exact Hg|exact Hw|exact Hfu|exact Hwd|exact Hif|exact Hpi]|].
      destruct Hg as (s & u & -> & H1 & Ho & Hu & Hfi & Hd).
      assert (Hui : u ∈ i.*1) by (by rewrite Hpi). destruct (in_id_ok i u Hui) as [bs Hbs].
      assert (Hpc : pace_ok P (sq_bpm s) (sq_sr s) bs).
      { pose proof (in_id_in _ _ _ Hbs) as Hin. unfold R_ins in Hins. rewrite Forall_forall in Hins. destruct (Hins _ Hin) as (stu & _ & _ & Hx & _). by apply Hx. }
      destruct (seq_led P s i _ b u bs H1 (proj1 Hfu) Hif Hpi Hu Ho Hbs Hpc Hfi Hr) as (s' & o' & Es & _). cbn [gproc sproc]. rewrite Es. exact I.
    - unfold next_block. rewrite E1. assert (Ep' : process (@nproc L) shs (en_graph L e1) (en_dest L e1) = Ok g) by exact Ep. rewrite Ep'.
      destruct (Hlive (en_dest L e1)) as [w Hw]; [rewrite Fd; apply Hlv, (ei_live _ _ He); by left|].
      assert (Hw' : node_weight (g : sgraph (node L * list (buf L))) (en_dest L e1) = Some w) by exact Hw. rewrite Hw'.
      do 2 eexists. split; [reflexivity|]. cbn [en_ast]. split; [by rewrite Fa|]. intros k i c v Hpl Hh. cbn [en_info en_graph] in *. rewrite Fi in Hpl.
      assert (Hh1 : reaches (en_graph L e1) v (en_dest L e1)).
      { revert Hh. unfold heard. cbn [en_graph en_dest]. unfold reaches. apply rtc_subrel. intros x y Hxy. refine (eq_ind (edges g) (fun l => (x, y) ∈ l) Hxy _ Hge). }
      assert (Hh0 : heard L e v) by (unfold heard; rewrite <- Fd; by apply Hre).
      split; [|intros st b Hv; by apply (Hall v (st, b) Hv)].
      destruct (Hset k i c v Hpl Hh0) as [[Hs|[Hs|Hs]] _]; [by left|right; left|by right; right]. pose proof Hs as (evs & j & m & -> & -> & H1 & Hnd & Hdt & Hk & Hmo & _).
      exists evs, j, m. cbn [en_info en_graph]. rewrite Fi. split_and!; try done. intros s b stm bm Hv Hmw.
      destruct (Hall v _ Hv) as (_ & _ & _ & Hfix). destruct (Hfix s eq_refl) as (s0 & b0 & Hv0 & Hfx).
      unfold seq_fixed in Hfx. injection Hfx as T1 T2 T3 T4 T5. rewrite T4, T5.
      apply (Hall m (stm, bm) Hmw). exists k, j, evs, v, s0, b0. split_and!; done.
  Qed.

  (** So the program plays for ever: block after block, whatever the iteration orders and the input. *)
  Fixpoint plays_on (blk : Z) (e : engine L) (l : list ((nat -> shuffle) * list sig)) : res (engine L) :=
    match l with
    | [] => Ok e
    | (shs, ins) :: l => match next_block L blk shs e ins with Ok (e', _) => plays_on blk e' l | Panic => Panic end
    end.
  Theorem C62_plays_for_ever_partial blk e p l :
    tamely L blk e -> en_ast L e = Some p -> settled e p -> Forall (fun x => fits blk e x.2) l -> is_ok (plays_on blk e l).
  Proof.
    revert e. induction l as [|[shs ins] l IH]; intros e Ht Hp Hs Hl; [done|]. inversion Hl as [|? ? Hf Hl']; subst. cbn [plays_on snd] in *.
    destruct (C62_next_block_plays_partial blk e p shs ins Ht Hp Hs Hf) as (e' & out & E & Hp' & Hs'). rewrite E.
    assert (Hstep : step L blk e (CNext L shs ins) = Ok (e', OBlock L out)) by (cbn [step]; by rewrite E).
    apply IH; [|done|done|].
    - exact (tm_step L blk e (CNext L shs ins) e' _ Ht I Hstep).
    - eapply Forall_impl; [exact Hl'|]. intros x [Hx|[Hx1 Hx2]]; [by left|right; split; [|done]]. exact (un_step P get blk e (CNext L shs ins) e' _ Hx1 I ltac:(discriminate) Hstep).
  Qed.
End nopanic.

(** ** An example *)

(** Deciding the hypotheses. *)
Definition no_dots_b (r : string) : bool := negb (contains_char "." r).
Definition plain_num_b (p : numref) : bool := match p with Num _ => true | NRef r => no_dots_b r end.
Definition is_num_b (p : numref) : bool := match p with Num _ => true | NRef _ => false end.
Definition steady_b (c : component) (i : nat) : bool :=
  match c with
  | CConstSig _ | CNoise _ | CSpeed _ | CGet _ | CMix _ | CImp _ | CDelayn _ | CMsgSynth _ _ _ | CPatternSynth _ _ | CPoints _ _ _ | CSp _ | CPSampler _ | CChoose _
  | CMeta _ | CEnvPerc _ _ | CAdsr _ _ _ _ | CSawSynth _ _ | CSquSynth _ _ | CTriSynth _ _ => true
  | CSin p | CSaw p | CSqu p | CTri p | CMul p | CAdd p | COnepole p | CRhpf p _ => plain_num_b p
  | CLpf (SigNum _) _ | CLpf (SigPattern _ _) _ => true
  | CLpf (SigRef r) _ => no_dots_b r
  | CBd p | CHh p | CSn p | CApfmsGain p _ => is_num_b p
  | CPan p => Nat.ltb 0 i && plain_num_b p
  | CDelayms p => Nat.ltb 0 i && is_num_b p
  | CBalance l r => Nat.eqb i 0 && no_dots_b l && no_dots_b r
  | CSeq evs => Nat.eqb i 0 && match component_refs (CSeq evs) with [] => true | _ => false end
  | _ => false
  end.
Lemma no_dots_b_ok r : no_dots_b r = true -> no_dots r.
Proof. unfold no_dots_b, no_dots. by destruct (contains_char "." r). Qed.
Lemma plain_num_b_ok p : plain_num_b p = true -> plain_num p.
Proof. destruct p; [done|apply no_dots_b_ok]. Qed.
Lemma is_num_b_ok p : is_num_b p = true -> is_num p.
Proof. by destruct p. Qed.
Lemma steady_b_ok c i : steady_b c i = true -> steady c i.
Proof.
  destruct c; cbn [steady_b steady]; try done; try apply plain_num_b_ok; try apply is_num_b_ok.
  - intros [H1 H2]%andb_prop. split; [by apply Nat.ltb_lt|by apply is_num_b_ok].
  - intros [H1 H2]%andb_prop. split; [by apply Nat.ltb_lt|by apply plain_num_b_ok].
  - intros [H1 H2]%andb_prop. split; [by apply Nat.eqb_eq|]. by destruct (component_refs _).
  - destruct sg; try done. apply no_dots_b_ok.
  - intros [[H1 H2]%andb_prop H3]%andb_prop. split_and!; [by apply Nat.eqb_eq|by apply no_dots_b_ok..].
Qed.
Definition known_b (dict : gmap string sampledata) (name : string) : bool :=
  match dict !! name with
  | Some d => (Z.of_nat (length (sd_data d)) <=? 16777216)%Z && ((sd_chan d =? 1)%Z && (1 <=? frames d)%Z || (sd_chan d =? 2)%Z && (2 <=? frames d)%Z)
  | None => false
  end.
Lemma known_b_ok dict name : known_b dict name = true -> known dict name.
Proof.
  unfold known_b, known. destruct (dict !! name) as [d|]; [|done]. intros [H1 H2]%andb_prop. exists d. split; [done|]. split; [by apply Z.leb_le|].
  apply orb_true_iff in H2 as [[H2 H3]%andb_prop|[H2 H3]%andb_prop]; [left|right]; (split; [by apply Z.eqb_eq|by apply Z.leb_le]).
Qed.
Definition ready_b (P : platform) (st : gnode P) : bool :=
  match st with
  | Simple (NImp s) => negb (Z.eqb (im_period s) 0)
  | Simple (NPSynth s) => negb (Z.eqb (ps_bar P s) 0)
  | Simple (NSeq s) => negb (Z.eqb (seq_bar P s) 0)
  | Simple (NPoints s) => negb (po_loop s && Z.eqb (points_bar P s) 0)
  | Simple (NRlpf s) => match bq_pattern s with [] => true | _ => negb (Z.eqb (lpf_bar P s) 0) end
  | Simple (NChoose s) => Nat.ltb 0 (length (ch_list s)) && (Z.of_nat (length (ch_list s)) <? 2 ^ 53)%Z && (Z.of_nat (length (ch_list s)) <=? umax (p_cfg P))%Z
  | Simple (NSampler s) => false
  | Simple (NPSampler s) => negb (Z.eqb (pa_bar P s) 0) && forallb (fun ev => known_b (pa_dict s) ev.1) (pa_pattern s) && forallb (fun v => known_b (pa_dict s) v.1.2) (pa_play s)
  | Simple (NArrange s) => Nat.leb (length (ar_events s) / 2) (length (ar_ord s))
  | _ => true
  end.
Lemma ready_b_ok P st : (forall seed k, unit_noise (p_noise P seed k)) -> ready_b P st = true -> ready P st.
Proof.
  intros Hn. destruct st as [n|]; [|done]. destruct n; cbn [ready_b ready]; try done.
  - intros H E. by rewrite E in H.
  - intros H E. by rewrite E in H.
  - intros [[H1 H2]%andb_prop H3]%andb_prop. split_and!; [by apply Nat.ltb_lt|by apply Z.ltb_lt|by apply Z.leb_le|apply Hn].
  - intros H. by apply Nat.leb_le.
  - intros H H1 E. by rewrite H1, E in H.
  - intros H E. by rewrite E in H.
  - intros [[H1 H2]%andb_prop H3]%andb_prop. rewrite forallb_forall in H2, H3. split; [intros E; by rewrite E in H1|].
    split; apply Forall_forall; intros x Hx; apply known_b_ok; [by apply H2, elem_of_list_In|by apply H3, elem_of_list_In].
  - unfold bq_fine. destruct (bq_pattern s); [by left|]. intros H. right. intros E. by rewrite E in H.
Qed.
Definition paces_b (P : platform) (bpm : f32) (sr : Z) (st : gnode P) : bool :=
  match st with
  | Simple (NSpeed s) => negb (Z.eqb (as_usize (p_cfg P) (bar_length bpm sr (sp_val s))) 0)
  | Simple (NConst _) => true
  | Simple (NImp _) => negb (Z.eqb (as_usize (p_cfg P) (bar_length bpm sr f1)) 0)
  | _ => false
  end.
Lemma paces_b_ok P bpm sr st : paces_b P bpm sr st = true -> paces P bpm sr st.
Proof. destruct st as [n|]; [|done]. destruct n; cbn [paces_b paces]; try done; intros H E; by rewrite E in H. Qed.
Definition pace_ok_b (P : platform) (bpm : f32) (sr : Z) (b : list sig) : bool :=
  match asks b with Some x => negb (Z.eqb (as_usize (p_cfg P) (bar_length bpm sr x)) 0) | None => true end.
Lemma pace_ok_b_ok P bpm sr b : pace_ok_b P bpm sr b = true -> pace_ok P bpm sr b.
Proof. unfold pace_ok_b, pace_ok. intros H x E F. rewrite E, F in H. done. Qed.
Definition follows_b {P get} (e : engine (glang P get)) (k : string) (i : nat) (c : component) : bool :=
  match c, i with
  | CSeq evs, S j =>
    Nat.ltb 1 (p_blk P) && bool_decide (NoDup (component_refs c)) && forallb no_dots_b (component_refs c) && bool_decide (k ∉ component_refs c) &&
    match en_info (glang P get) e !! k with
    | Some ids =>
      match ids !! S j, ids !! j with
      | Some v, Some m =>
        match (node_weight (en_graph (glang P get) e) v : option (gnode P * list sig)), (node_weight (en_graph (glang P get) e) m : option (gnode P * list sig)) with
        | Some (Simple (NSeq s), _), Some (st, b) => paces_b P (sq_bpm s) (sq_sr s) st && pace_ok_b P (sq_bpm s) (sq_sr s) b
        | _, _ => false
        end
      | _, _ => false
      end
    | None => false
    end
  | _, _ => false
  end.
Lemma follows_b_ok P get (e : engine (glang P get)) k i c v : owner (en_info (glang P get) e) v k i -> follows_b e k i c = true -> follows P get e k i c v.
Proof.
  intros (ids & Hk & Hi). unfold follows_b. destruct c; try done. destruct i as [|j]; [done|]. rewrite Hk.
  intros [[[[H1 H2]%andb_prop H3]%andb_prop H4]%andb_prop H5]%andb_prop. rewrite Hi in H5. destruct (ids !! j) as [m|] eqn:Em; [|done].
  exists events, j, m. split_and!; [done|done|by apply Nat.ltb_lt|by apply bool_decide_eq_true_1 in H2| |by apply bool_decide_eq_true_1 in H4|by exists ids|].
  - apply Forall_forall. intros r Hr. rewrite forallb_forall in H3. by apply no_dots_b_ok, H3, elem_of_list_In.
  - intros s b st b' Hv Hm. cbn [node buf glang] in *. rewrite Hv, Hm in H5. apply andb_prop in H5 as [H5 H6]. split; [by apply paces_b_ok|by apply pace_ok_b_ok].
Qed.
Definition arranges_b (k : string) (c : component) : bool :=
  match c with
  | CArrange _ => negb (Nat.eqb (length (component_refs c)) 0) && forallb no_dots_b (component_refs c) && bool_decide (k ∉ component_refs c)
  | _ => false
  end.
Lemma arranges_b_ok k c : arranges_b k c = true -> arranges k c.
Proof.
  destruct c; try done. cbn [arranges_b]. intros [[H1 H3]%andb_prop H4]%andb_prop. exists events.
  split_and!; [done| | |by apply bool_decide_eq_true_1 in H4].
  - intros E. by rewrite E in H1.
  - apply Forall_forall. intros r Hr. rewrite forallb_forall in H3. by apply no_dots_b_ok, H3, elem_of_list_In.
Qed.
Definition settled_b {P get} (e : engine (glang P get)) : bool :=
  match en_ast (glang P get) e with
  | None => false
  | Some p =>
    forallb (fun kv : string * list component => forallb (fun ic => steady_b ic.2 ic.1 || follows_b e kv.1 ic.1 ic.2 || arranges_b kv.1 ic.2) (imap pair kv.2)) (map_to_list p) &&
    forallb (fun w : option (gnode P * list sig) => match w with Some (st, _) => ready_b P st | None => true end) (slots (en_graph (glang P get) e))
  end.
Lemma settled_b_ok P get (e : engine (glang P get)) : (forall seed k, unit_noise (p_noise P seed k)) -> settled_b e = true ->
  exists p, en_ast (glang P get) e = Some p /\ settled P get e p.
Proof.
  intros Hn. unfold settled_b. destruct (en_ast (glang P get) e) as [p|] eqn:Ep; [|done]. intros [H1 H2]%andb_prop. exists p. split; [done|].
  intros k i c v (cs & Hk & Hc & Hv) _. rewrite forallb_forall in H1, H2. split.
  - apply elem_of_map_to_list, elem_of_list_In, H1 in Hk. cbn [fst snd] in Hk. rewrite forallb_forall in Hk.
    assert (Hin : steady_b c i || follows_b e k i c || arranges_b k c = true).
    { refine (Hk (i, c) _). apply elem_of_list_In, elem_of_list_lookup. exists i. rewrite list_lookup_imap. cbn [fmap option_fmap option_map] in *.
      etransitivity; [apply (f_equal (fmap (pair i)) Hc)|reflexivity]. }
    apply orb_true_iff in Hin as [[Hin|Hin]%orb_true_iff|Hin]; [left; by apply steady_b_ok|right; left; by apply follows_b_ok|right; right; by apply arranges_b_ok].
  - intros st b Hw. apply ready_b_ok; [done|]. unfold node_weight in Hw. destruct (slots (en_graph (glang P get) e) !! v) as [[w|]|] eqn:E; try done.
    injection Hw as ->. apply elem_of_list_lookup_2, elem_of_list_In, H2 in E. exact E.
Qed.

(** A program with modulation, filters, envelopes, a drum, sequences, an arrangement, a pattern of
    samples, effects and feedback
    meets the hypotheses, also after an edit, and so it can be played for ever. *)
From Verif Require Import Session.
Definition ex_song (gain : string) : string := ("~lfo: sin 3 >> mul 100 >> add 300
~beat: imp 4 >> bd 0.3
~hat: seq 60 _60 >> hh 0.1 >> pan 0.2
~echo: mix ~beat ~out >> delayms 10 >> mul 0.5
~n: choose 60 62 67
~lead: speed 4.0 >> seq 60 _~n 72 >> mul 0.1
~parts: arrange ~hat 2.0 ~lead 1.0 ~hat 1.0
~drums: psampler ""\bd@0.0 \hat@0.5""(1.0)
~out: saw ~lfo >> lpf ~lfo 1.0 >> lpf ""1000.0@0.0 500.0@0.5""(1.0) 1.0 >> envperc 0.01 0.1
o: mix ~echo ~parts ~out ~drums >> mul " ++ gain ++ "
q: balance ~beat ~hat")%string.
Definition ex_hit : sampledata := Sample [f1; fhalf; f0] 1 44100.
Definition ex_playing : option (engine glicol) :=
  tame_run glicol 8 (engine_new glicol) [CSample glicol "\bd" ex_hit; CSample glicol "\hat" ex_hit; submit (ex_song "0.5"); play_block; submit (ex_song "0.7"); CBpm glicol (f_of_Z 90)].
Lemma ex_playing_settled : match ex_playing with Some e => settled_b e | None => false end = true.
Proof. run_session. Qed.
Example C62_song_plays : exists e p, tamely glicol 8 e /\ en_ast glicol e = Some p /\ settled demo (get_ast c64 no_math) e p /\
  forall l : list (nat -> shuffle), is_ok (plays_on demo (get_ast c64 no_math) 8 e (map (fun shs => (shs, [])) l)).
Proof.
  pose proof ex_playing_settled as H. destruct ex_playing as [e|] eqn:E; [|discriminate H].
  destruct (settled_b_ok _ _ _ demo_unit_noise H) as (p & Hp & Hs). exists e, p.
  assert (Ht : tamely glicol 8 e) by (eapply tame_run_spec; [apply tm_new|exact E]).
  split; [exact Ht|]. split; [exact Hp|]. split; [exact Hs|]. intros l.
  eapply C62_plays_for_ever_partial; [reflexivity|cbn; lia|cbn; lia|exact Ht|exact Hp|exact Hs|].
  apply Forall_forall. intros x Hx. apply elem_of_list_fmap in Hx as (shs & -> & _). by left.
Qed.
