(** * C82: a session can be repeated.

    Vocabulary: see Props_Elsewhere.v (C81) and Props_Isolation.v (C78). *)
From Verif Require Import InputProofs BlockProofs SafeNet Reorder Rename Props_Signal Props_Inputs Props_Update Props_Blocks Props_Isolation Props_Elsewhere.
From Coq Require Import Lia.
Local Open Scope nat_scope.
Local Notation length := List.length.

Lemma plan_total (L : lang) o (e : engine L) (n : gmap string (list (comp L))) d er :
  diff_chains L (the_env L e) (old_ast L e) (o_new o _ (map_to_list n)) (diff0 L) = Done d -> plan L o (set_temp L e []) n ≠ Fail er.
Proof.
  unfold plan, old_ast. cbn [set_temp en_ast en_info]. change (the_env L (set_temp L e [])) with (the_env L e).
  destruct (en_ast L e) as [old|]; intros D; [|change (default ∅ None) with (∅ : gmap string (list (comp L))) in D]; cbn in D; rewrite D; [|done].
  destruct (drop_chains _ _ _ _) as [st|]; [|done]. by destruct (remove_all _ st) as [[? ?]|].
Qed.

Section replay.
  Context (P : platform) (get : string -> outcome (gmap string (list component))) (blk : Z).
  Notation L := (glang P get).
  Notation engine := (engine L).
  Notation prog := (gmap string (list component)).
  Notation block := (list (list f32)).

  (** Chains with names of their own: all but the external input. *)
  Definition chain_name (k : string) : Prop := k ≠ "~input"%string.
  (** Texts without [arrange], without reference to the external input, whose numbers are numbers
      (a NaN is not equal to itself, so that its component would be made anew by every update). *)
  Definition simple_text (p : prog) : Prop := forall k cs c, p !! k = Some cs -> c ∈ cs ->
    (forall evs, c ≠ CArrange evs) /\ component_eqb c c = true /\ "~input"%string ∉ component_refs c.
  (** The chains loaded now, all of them in use, without feedback (C78). *)
  Definition well_founded_text (p : prog) : Prop := exists rk, self_contained (fun k => chain_name k /\ is_Some (p !! k)) rk p.
  (** At most two chains are audible. *)
  Definition few_audible (p : prog) : Prop := exists a b, forall k, is_Some (p !! k) -> contains_char "~" k = false -> k = a \/ k = b.

  (** [replay e1 e2 bs1 bs2]: two engines with any pasts, both without chains and with the same
      samples, sample rate, tempo and seed, were given the same calls from then on.  The hash orders
      and the external input may differ.  [bs1], [bs2]: the blocks they returned, each with the
      text in force. *)
  Inductive replay : engine -> engine -> list (prog * block) -> list (prog * block) -> Prop :=
  | rp_start e1 e2 : tamely L blk e1 -> tamely L blk e2 -> old_ast L e1 = ∅ -> old_ast L e2 = ∅ -> the_env L e1 = the_env L e2 -> replay e1 e2 [] []
  | rp_accepted e1 e2 bs1 bs2 o1 o2 t (n : prog) e1' e2' : replay e1 e2 bs1 bs2 -> get t = Done n -> prog_ok L n -> Props_Update.plain_edit (L := L) (old_ast L e1) n -> simple_text n ->
      update L o1 e1 t = Ok (e1', None) -> update L o2 e2 t = Ok (e2', None) -> replay e1' e2' bs1 bs2
  | rp_rejected e1 e2 bs1 bs2 o1 o2 t e1' e2' er1 er2 : replay e1 e2 bs1 bs2 -> (forall n : prog, get t = Done n -> prog_ok L n /\ Props_Update.plain_edit (L := L) (old_ast L e1) n) ->
      update L o1 e1 t = Ok (e1', Some er1) -> update L o2 e2 t = Ok (e2', Some er2) -> replay e1' e2' bs1 bs2
  | rp_msg e1 e2 bs1 bs2 c m e1' e2' : replay e1 e2 bs1 bs2 ->
      (forall cmd, cmd ∈ split_on ";" (sfilter (fun ch => negb (is_space ch)) m) -> head (split_on "," cmd) ≠ Some "~input"%string) ->
      send_msg L c e1 m = Ok e1' -> send_msg L c e2 m = Ok e2' -> replay e1' e2' bs1 bs2
  | rp_bpm e1 e2 bs1 bs2 b e1' e2' : replay e1 e2 bs1 bs2 -> set_bpm L e1 b = Ok e1' -> set_bpm L e2 b = Ok e2' -> replay e1' e2' bs1 bs2
  | rp_sample e1 e2 bs1 bs2 nm s : replay e1 e2 bs1 bs2 -> replay (add_sample L e1 nm s) (add_sample L e2 nm s) bs1 bs2
  | rp_sr e1 e2 bs1 bs2 sr : replay e1 e2 bs1 bs2 -> replay (set_sr L e1 sr) (set_sr L e2 sr) bs1 bs2
  | rp_seed e1 e2 bs1 bs2 sd : replay e1 e2 bs1 bs2 -> replay (set_seed L e1 sd) (set_seed L e2 sd) bs1 bs2
  | rp_reset e1 e2 bs1 bs2 : replay e1 e2 bs1 bs2 -> replay (engine_reset L e1) (engine_reset L e2) bs1 bs2
  | rp_block e1 e2 bs1 bs2 shs1 shs2 ins1 ins2 e1' e2' out1 out2 : replay e1 e2 bs1 bs2 -> well_founded_text (old_ast L e1) ->
      next_block L blk shs1 e1 ins1 = Ok (e1', out1) -> next_block L blk shs2 e2 ins2 = Ok (e2', out2) ->
      replay e1' e2' (bs1 ++ [(old_ast L e1, out1)]) (bs2 ++ [(old_ast L e2, out2)]).

  (** ** Proof *)
  Notation same := (fun k : string => k).
  Notation side := (side_by_side P get blk chain_name same same).
  Lemma same_renaming : renaming chain_name same same.
  Proof. by split. Qed.
  Lemma same_input k : chain_name k -> k ≠ input_name /\ k ≠ input_name.
  Proof. by split. Qed.
  Lemma same_ren c : ren same c = c.
  Proof. by apply ren_fix. Qed.
  Lemma same_corresponds (p : prog) : corresponds chain_name same p p.
  Proof. intros k _. cbn. destruct (p !! k) as [cs|]; [|done]. cbn. f_equal. induction cs as [|c cs IH]; [done|]. cbn [map]. by rewrite same_ren, <- IH. Qed.
  Lemma simple_fits (p : prog) : simple_text p -> fits chain_name same p.
  Proof.
    intros H k cs i c _ Hk Hi. destruct (H k cs c Hk (elem_of_list_lookup_2 _ _ _ Hi)) as (A & B & C). split_and!; [done|done| |done]. intros r Hr ->. done.
  Qed.
  Lemma env_channel (e e' : engine) ch s : write_channel L e ch s = Ok e' -> the_env L e' = the_env L e.
  Proof.
    unfold write_channel. destruct (_ !! input_name) as [ids|]; [|done]. destruct (ids !! 0) as [id|]; [|done]. destruct (node_weight _ _) as [w|]; [|done].
    destruct (w.2 !! ch) as [b|]; [|done]. destruct (copy_slice b s) as [b'|]; [|done]. destruct (set_weight _ _ _) as [g|]; [|done]. by intros [= <-].
  Qed.
  Lemma env_block (e e' : engine) shs ins out : next_block L blk shs e ins = Ok (e', out) -> the_env L e' = the_env L e.
  Proof.
    unfold next_block. destruct (write_input L e ins) as [x|] eqn:E; [|done].
    assert (Hx : the_env L x = the_env L e).
    { unfold write_input in E. destruct ins as [|s0 rest]; [by injection E as <-|]. destruct (write_channel L e 0 s0) as [y|] eqn:E0; [|done]. apply env_channel in E0.
      destruct rest as [|s1 rest]; [by injection E as <-|]. apply env_channel in E. by rewrite E. }
    destruct (process _ _ _ _) as [g|]; [|done]. destruct (node_weight g _) as [w|]; [|done]. intros [= <- <-]. exact Hx.
  Qed.
  Lemma env_msg (e e' : engine) c m : send_msg L c e m = Ok e' -> the_env L e' = the_env L e.
  Proof.
    unfold send_msg. intros H. eapply (foldM_inv (fun x => the_env L x = the_env L e)); [done| |exact H].
    intros x s x' Hx _. unfold send_command. destruct (split_on "," s) as [|a [|b [|d [|v r]]]]; try (intros [= <-]; done).
    destruct (_ !! a) as [ids|]; [|by intros [= <-]]. destruct (ids !! _) as [id|]; [|done]. destruct (send_to _ _ _ _) as [g|]; [|done]. by intros [= <-].
  Qed.
  Lemma env_bpm (e e' : engine) b : set_bpm L e b = Ok e' -> the_env L e' = Env (en_samples L e) (en_sr L e) b (en_seed L e).
  Proof. unfold set_bpm. destruct (send_to_all _ _ _); [|done]. by intros [= <-]. Qed.
  Lemma accepted_facts o (e e' : engine) t (n : prog) : tamely L blk e -> get t = Done n -> prog_ok L n -> Props_Update.plain_edit (L := L) (old_ast L e) n -> update L o e t = Ok (e', None) ->
    old_ast L e' = n /\ the_env L e' = the_env L e.
  Proof.
    intros Ht Hg Hpo Hpl Hu. assert (Hp : parse (l := L) t = Done n) by exact Hg. unfold update in Hu. rewrite Hp in Hu.
    destruct (tamely_inv L (glang_ok P get) _ _ Ht) as (He & Hal & _).
    pose proof (tame_update_result L (glang_ok P get) _ _ _ _ He Hal Hpo (Props_Update.plain_tame L (glang_ok P get) _ _ Hpl) Hu) as R.
    split; [|exact (re_env _ _ _ _ _ R)]. unfold old_ast. by rewrite (re_ast _ _ _ _ _ R).
  Qed.
  Lemma split_on_nonempty c s : split_on c s ≠ [].
  Proof. destruct s as [|d s]; [done|]. cbn. destruct (Ascii.eqb c d); [done|]. by destruct (split_on c s). Qed.
  Record level (e1 e2 : engine) : Prop := {
    lv_side : side e1 e2;
    lv_env : the_env L e1 = the_env L e2;
    lv_text : old_ast L e1 = old_ast L e2
  }.
  Lemma level_1 e1 e2 : level e1 e2 -> tamely L blk e1.
  Proof. intros [H _ _]. exact (ti_1 _ _ _ _ _ _ _ (side_tie _ _ _ _ _ _ same_renaming same_input e1 e2 H)). Qed.
  Lemma level_2 e1 e2 : level e1 e2 -> tamely L blk e2.
  Proof. intros [H _ _]. exact (ti_2 _ _ _ _ _ _ _ (side_tie _ _ _ _ _ _ same_renaming same_input e1 e2 H)). Qed.
  Lemma level_both e1 e2 c1 c2 e1' e2' ob1 ob2 : level e1 e2 -> spares P get chain_name e1 c1 -> spares P get (there chain_name same same) e2 c2 -> blocks P get c1 = 0 -> blocks P get c2 = 0 ->
    step L blk e1 c1 = Ok (e1', ob1) -> step L blk e2 c2 = Ok (e2', ob2) -> side e1' e2'.
  Proof.
    intros [H _ _] H1 H2 B1 B2 S1 S2. eapply sb_right; [|exact H2|exact B2|exact S2]. eapply sb_left; [exact H|exact H1|exact B1|exact S1].
  Qed.
  Lemma rejected_facts o (e e' : engine) t er : tamely L blk e -> update L o e t = Ok (e', Some er) -> old_ast L e' = old_ast L e /\ the_env L e' = the_env L e.
  Proof.
    intros Ht Hu. destruct (tamely_inv L (glang_ok P get) _ _ Ht) as (He & _). unfold update in Hu. destruct (parse t) as [n|er0|]; [|by injection Hu as <- _|done].
    apply update_ast_fail in Hu; [|done]. destruct Hu as [_ _ _ _ E5 _ _ E8 E9 E10 E11 _]. unfold old_ast, the_env. by rewrite E5, E8, E9, E10, E11.
  Qed.
  Lemma replay_level e1 e2 bs1 bs2 : replay e1 e2 bs1 bs2 -> level e1 e2 /\ Forall2 (fun x y => x.1 = y.1 /\ (x.1 ≠ ∅ -> few_audible x.1 -> x.2 = y.2)) bs1 bs2.
  Proof.
    induction 1 as [e1 e2 H1 H2 A1 A2 Henv|e1 e2 bs1 bs2 o1 o2 t n e1' e2' _ [IH HB] Hg Hpo Hpl Hsi U1 U2|e1 e2 bs1 bs2 o1 o2 t e1' e2' er1 er2 _ [IH HB] Hn U1 U2|e1 e2 bs1 bs2 c m e1' e2' _ [IH HB] Hm H1 H2
      |e1 e2 bs1 bs2 b e1' e2' _ [IH HB] H1 H2|e1 e2 bs1 bs2 nm s _ [IH HB]|e1 e2 bs1 bs2 sr _ [IH HB]|e1 e2 bs1 bs2 sd _ [IH HB]|e1 e2 bs1 bs2 _ [IH HB]
      |e1 e2 bs1 bs2 shs1 shs2 ins1 ins2 e1' e2' out1 out2 _ [IH HB] [rk Hsc] H1 H2].
    - split; [|constructor]. split; [|done|by rewrite A1, A2]. apply sb_start; [done|done|]. intros k _. unfold text. rewrite A1, A2. split; apply lookup_empty.
    - split; [|done]. pose proof (level_1 _ _ IH) as T1. pose proof (level_2 _ _ IH) as T2. pose proof IH as [Hs Henv Htx]. assert (Hpl2 : Props_Update.plain_edit (L := L) (old_ast L e2) n) by (by rewrite <- Htx).
      destruct (accepted_facts o1 e1 e1' t n T1 Hg Hpo Hpl U1) as [X1 Y1]. destruct (accepted_facts o2 e2 e2' t n T2 Hg Hpo Hpl2 U2) as [X2 Y2].
      split; [|by rewrite Y1, Y2|by rewrite X1, X2].
      exact (sb_edit _ _ _ _ _ _ e1 e2 o1 o2 t t n n e1' e2' Hs Henv Hg Hg Hpo Hpl Hpo Hpl2 (same_corresponds n) (simple_fits n Hsi) U1 U2).
    - split; [|done]. pose proof (level_1 _ _ IH) as T1. pose proof (level_2 _ _ IH) as T2. pose proof IH as [Hs Henv Htx].
      destruct (rejected_facts o1 e1 e1' t er1 T1 U1) as [X1 Y1]. destruct (rejected_facts o2 e2 e2' t er2 T2 U2) as [X2 Y2].
      split; [|by rewrite Y1, Y2|by rewrite X1, X2].
      eapply (level_both e1 e2 (CUpdate L o1 t) (CUpdate L o2 t)); [exact IH| | |done|done|cbn [step]; rewrite U1; reflexivity|cbn [step]; rewrite U2; reflexivity].
      + intros n Hg. destruct (Hn n Hg) as [A B]. split; [exact A|]. split; [exact B|]. intros [x Hx]. rewrite U1 in Hx. done.
      + intros n Hg. destruct (Hn n Hg) as [A B]. split; [exact A|]. split; [by rewrite <- Htx|]. intros [x Hx]. rewrite U2 in Hx. done.
    - split; [|done]. pose proof IH as [Hs Henv Htx]. pose proof (env_msg _ _ _ _ H1) as Y1. pose proof (env_msg _ _ _ _ H2) as Y2.
      assert (F1 : step L blk e1 (CMsg L c m) = Ok (e1', ODone L)) by (cbn [step]; by rewrite H1). assert (F2 : step L blk e2 (CMsg L c m) = Ok (e2', ODone L)) by (cbn [step]; by rewrite H2).
      apply step_frame in F1 as (F1 & _). apply step_frame in F2 as (F2 & _).
      split; [|by rewrite Y1, Y2|unfold old_ast; rewrite F1, F2; exact Htx].
      eapply (sb_msg _ _ _ _ _ _ e1 e2 c m m); [exact Hs| |exact H1|exact H2].
      assert (Hm' : Forall (fun s => head (split_on "," s) ≠ Some "~input"%string) (commands m)).
      { apply Forall_forall. intros s Hs'. unfold commands in Hs'. apply elem_of_list_filter in Hs' as [_ Hs']. by apply Hm. }
      clear -Hm'. induction Hm' as [|s l Hs _ IH]; [constructor|]. constructor; [|exact IH]. destruct (split_on "," s) as [|k rest] eqn:E; [by apply split_on_nonempty in E|].
      exists k, rest. split_and!; [|done|done]. intros ->. by apply Hs.
    - split; [|done]. pose proof IH as [Hs Henv Htx]. pose proof (env_bpm _ _ _ H1) as Y1. pose proof (env_bpm _ _ _ H2) as Y2.
      assert (F1 : step L blk e1 (CBpm L b) = Ok (e1', ODone L)) by (cbn [step]; by rewrite H1). assert (F2 : step L blk e2 (CBpm L b) = Ok (e2', ODone L)) by (cbn [step]; by rewrite H2).
      apply step_frame in F1 as (F1 & _). apply step_frame in F2 as (F2 & _).
      split; [by eapply sb_bpm|rewrite Y1, Y2; unfold the_env in Henv; by injection Henv as -> -> _ ->|unfold old_ast; rewrite F1, F2; exact Htx].
    - split; [|done]. pose proof IH as [Hs Henv Htx]. split; [|unfold the_env in Henv |- *; cbn; by injection Henv as -> -> -> ->|exact Htx].
      by eapply (level_both e1 e2 (CSample L nm s) (CSample L nm s)).
    - split; [|done]. pose proof IH as [Hs Henv Htx]. split; [|unfold the_env in Henv |- *; cbn; by injection Henv as -> _ -> ->|exact Htx].
      by eapply (level_both e1 e2 (CSr L sr) (CSr L sr)).
    - split; [|done]. pose proof IH as [Hs Henv Htx]. split; [|unfold the_env in Henv |- *; cbn; by injection Henv as -> -> -> _|exact Htx].
      by eapply (level_both e1 e2 (CSeed L sd) (CSeed L sd)).
    - split; [|done]. pose proof IH as [Hs Henv Htx]. split; [|unfold the_env in Henv |- *; cbn; by injection Henv as _ -> _ _|done].
      apply sb_start; [|  |intros k _; split; apply lookup_empty].
      + apply (tm_step L blk e1 (CReset L) _ (ODone L)); [by eapply level_1|exact I|reflexivity].
      + apply (tm_step L blk e2 (CReset L) _ (ODone L)); [by eapply level_2|exact I|reflexivity].
    - pose proof IH as [Hs Henv Htx]. pose proof (env_block _ _ _ _ _ H1) as Y1. pose proof (env_block _ _ _ _ _ H2) as Y2.
      assert (F1 : step L blk e1 (CNext L shs1 ins1) = Ok (e1', OBlock L out1)) by (cbn [step]; by rewrite H1). assert (F2 : step L blk e2 (CNext L shs2 ins2) = Ok (e2', OBlock L out2)) by (cbn [step]; by rewrite H2).
      apply step_frame in F1 as (F1 & _). apply step_frame in F2 as (F2 & _).
      assert (Hsc' : self_contained (now P get chain_name e1) rk (text P get e1)) by exact Hsc.
      split; [split; [by eapply sb_block|by rewrite Y1, Y2|unfold old_ast; rewrite F1, F2; exact Htx]|].
      apply Forall2_app; [exact HB|]. constructor; [|constructor]. cbn [fst snd]. split; [done|]. intros Hne (a & b & Hab).
      destruct (map_choose _ Hne) as (k & cs & Hk). assert (Hk2 : old_ast L e2 !! k = Some cs) by (rewrite <- Htx; exact Hk).
      assert (Hal : forall p : prog, alone chain_name p) by (intros p q qs _ Hq ->; done).
      eapply (C81_heard_partial P get blk chain_name same same same_renaming same_input e1 e2 rk shs1 shs2 ins1 ins2 e1' e2' out1 out2 a b Hs Hsc'); [by eapply ast_text|by eapply ast_text|apply Hal| | |exact H1|exact H2].
      + intros q qs Hq Hc. split; [by apply (Hal _ q qs Hq)|done].
      + intros q [_ Hq]. by apply Hab.
  Qed.

  (** ** The verdict on a text *)
  Definition plain_names (p : prog) : Prop := forall k cs c r, p !! k = Some cs -> c ∈ cs -> r ∈ component_refs c -> no_dots r /\ r ≠ "~input"%string.
  Lemma late_error o (e e' : engine) (n : prog) d t ids er : plan L o (set_temp L e []) n = Done (d, t, ids) -> update_ast L o e n = Ok (e', Some er) -> exists r, er = NonExistReference r.
  Proof.
    intros Hp. unfold update_ast. rewrite Hp. destruct (foldM (add_one L) _ _) as [[[g temp] t']|]; [|done]. destruct (ref_check _ _ _ _) as [r|]; [intros [= _ <-]; eauto|].
    unfold rewire. destruct (foldM (connect_refs_one _ _ _) _ _) as [[[g2 s2] er2]|] eqn:Ec; [|done].
    assert (Hr : match er2 with Some x => exists r, x = NonExistReference r | None => True end).
    { eapply (foldM_inv (fun st : ref_state L => match st.2 with Some x => exists r, x = NonExistReference r | None => True end)) in Ec; [exact Ec|done|].
      intros [[g0 s0] [x0|]] b x' Hx _ H; unfold connect_refs_one in H; [by injection H as <-|].
      destruct (_ !! b.1.2) as [l|]; [|injection H as <-; cbn; eauto]. destruct (l !! b.2) as [idx|]; [|done].
      destruct (if decide _ then _ else _) as [[g' s']|]; [|done]. destruct (foldM _ g' _) as [g''|]; [|discriminate H]. by injection H as <-. }
    destruct er2 as [x|]; [intros [= _ <-]; exact Hr|]. destruct (foldM (connect_chain L _) _ _); [|discriminate]. discriminate.
  Qed.
  Lemma accepted_too o1 o2 (e1 e2 e1' e2' : engine) (n : prog) er : tamely L blk e1 -> tamely L blk e2 -> old_ast L e1 = old_ast L e2 -> the_env L e1 = the_env L e2 -> prog_ok L n -> plain_names n ->
    update_ast L o1 e1 n = Ok (e1', None) -> update_ast L o2 e2 n = Ok (e2', er) -> er = None.
  Proof.
    intros T1 T2 Htx Henv Hpo Hpn U1 U2. destruct (tamely_inv L (glang_ok P get) _ _ T1) as (E1 & A1 & _). destruct (tamely_inv L (glang_ok P get) _ _ T2) as (E2 & A2 & _).
    assert (K1 : keys_ok L e1) by (intros k [ids Hk]; destruct (old_ast L e1 !! k) eqn:E; [by left; eexists|right; by eapply (al_only _ _ A1)]).
    assert (K2 : keys_ok L e2) by (intros k [ids Hk]; destruct (old_ast L e2 !! k) eqn:E; [by left; eexists|right; by eapply (al_only _ _ A2)]).
    pose proof (ref_check_exact L (glang_ok P get) _ _ _ _ _ E1 K1 (proj2 Hpo) U1) as R1. pose proof (ref_check_exact L (glang_ok P get) _ _ _ _ _ E2 K2 (proj2 Hpo) U2) as R2.
    destruct er as [[|r|s]|]; [done| | |done]; exfalso.
    - destruct R2 as [Hu R2]. destruct (R1 r Hu) as (k & Hk & Hav). destruct Hu as (k0 & cs & c & Hk0 & Hc & Hr). destruct (Hpn k0 cs c r Hk0 Hc Hr) as [Hd Hi].
      apply (R2 k Hk). unfold refers in Hk. rewrite (plain_ref r Hd) in Hk. subst k. destruct Hav as [Hav|[-> _]]; [by left|done].
    - unfold update_ast in U1. destruct (plan L o1 (set_temp L e1 []) n) as [[[d1 t1] i1]| |] eqn:P1; [|done..]. clear U1. apply plan_diff in P1.
      change (the_env L (set_temp L e1 [])) with (the_env L e1) in P1. change (old_ast L (set_temp L e1 [])) with (old_ast L e1) in P1. apply diff_chains_spec in P1 as (Hmade & _).
      destruct (diff_chains_total L (the_env L e2) (old_ast L e2) (o_new o2 _ (map_to_list n)) (diff0 L)) as [d2 D2].
      { rewrite <- Htx, <- Henv. intros kn p Hkn. apply Hmade. rewrite shuf_perm in Hkn |- *. exact Hkn. }
      destruct (plan L o2 (set_temp L e2 []) n) as [[[d3 t3] i3]|er3|] eqn:P2.
      + destruct (late_error _ _ _ _ _ _ _ _ P2 U2) as [r Hr]. done.
      + by eapply (plan_total L o2 e2 n d2 er3 D2).
      + unfold update_ast in U2. by rewrite P2 in U2.
  Qed.
  (** C82: both engines accept the text or neither does. *)
  Theorem C82_same_verdict e1 e2 bs1 bs2 o1 o2 t (n : prog) e1' e2' er1 er2 : replay e1 e2 bs1 bs2 -> get t = Done n -> prog_ok L n -> plain_names n ->
    update L o1 e1 t = Ok (e1', er1) -> update L o2 e2 t = Ok (e2', er2) -> (er1 = None <-> er2 = None).
  Proof.
    intros [IH _]%replay_level Hg Hpo Hpn U1 U2. pose proof (level_1 _ _ IH) as T1. pose proof (level_2 _ _ IH) as T2. destruct IH as [_ Henv Htx].
    unfold update in U1, U2. assert (Hp : parse (l := L) t = Done n) by exact Hg. rewrite Hp in U1, U2. split; intros ->.
    - by eapply (accepted_too o1 o2 e1 e2).
    - by eapply (accepted_too o2 o1 e2 e1).
  Qed.

  (** C82: after [reset] an engine at the rate it was made with starts over like a new one: no
      chains, no samples, the same tempo and seed. *)
  Theorem C82_reset_starts_over e : tamely L blk e -> en_sr L e = en_sr L (engine_new L) -> replay (engine_reset L e) (engine_new L) [] [].
  Proof.
    intros H E. apply rp_start; [|apply tm_new|reflexivity|reflexivity|].
    - apply (tm_step L blk e (CReset L) _ (ODone L)); [exact H|exact I|reflexivity].
    - unfold the_env. cbn. by rewrite E.
  Qed.

  (** C82: the blocks returned are the same, bit for bit, whenever at most two chains are audible. *)
  Theorem C82_replay_partial e1 e2 bs1 bs2 : replay e1 e2 bs1 bs2 -> length bs1 = length bs2 /\
    forall i t1 t2 out1 out2, bs1 !! i = Some (t1, out1) -> bs2 !! i = Some (t2, out2) -> t1 ≠ ∅ -> few_audible t1 -> t1 = t2 /\ out1 = out2.
  Proof.
    intros [_ H]%replay_level. split; [by eapply Forall2_length|]. intros i t1 t2 out1 out2 H1 H2 Hne Hf.
    destruct (Forall2_lookup_lr _ _ _ _ _ _ H H1 H2) as [E Ho]. cbn [fst snd] in E, Ho. split; [done|by apply Ho].
  Qed.
End replay.

(** ** A case *)
From Verif Require Import Session.
Local Open Scope nat_scope.
(** The second engine has played another program and was reset; its hash maps are walked the
    other way round. *)
Definition rp_other : orders := Orders rev_shuffle rev_shuffle rev_shuffle rev_shuffle.
Definition rp_turned : call glicol := CNext glicol (fun _ => rev_shuffle) [].
Definition rp_note : call glicol := CMsg glicol c64 "o,0,0,4".
Definition rp_1 : engine glicol := is_run (engine_new glicol) [submit is_text].
Definition rp_2 : engine glicol := is_run rp_1 [rp_note].
Definition rp_3 : engine glicol := is_run rp_2 [play_block].
Definition rp_b0 : engine glicol := is_run (engine_new glicol) [submit ew_before; play_block; CReset glicol].
Definition rp_b1 : engine glicol := is_run rp_b0 [CUpdate glicol rp_other is_text].
Definition rp_b2 : engine glicol := is_run rp_b1 [rp_note].
Definition rp_b3 : engine glicol := is_run rp_b2 [rp_turned].
Notation rp_replay := (replay demo (get_ast c64 no_math) 8).
Lemma rp_well (p : gmap string (list component)) : p !! "~a"%string = Some is_a -> p !! "o"%string = Some is_o -> map_to_list (delete "~a"%string (delete "o"%string p)) = [] -> well_founded_text p.
Proof.
  intros Ha Ho Hd. exists is_rank. eapply self_contained_iff; [|by apply is_contained]. intros k. split.
  - intros [->| ->]; (split; [discriminate|eauto]).
  - intros [_ [cs Hk]]. apply map_to_list_empty_iff in Hd. destruct (decide (k = "~a"%string)) as [->|N1]; [by left|]. destruct (decide (k = "o"%string)) as [->|N2]; [by right|].
    assert (E : delete "~a"%string (delete "o"%string p) !! k = Some cs) by (by rewrite !lookup_delete_ne by done). by rewrite Hd, lookup_empty in E.
Qed.
Lemma rp_simple (p : gmap string (list component)) : p !! "~a"%string = Some is_a -> p !! "o"%string = Some is_o -> map_to_list (delete "~a"%string (delete "o"%string p)) = [] -> simple_text p.
Proof.
  intros Ha Ho Hd k cs c Hk Hc. apply map_to_list_empty_iff in Hd. destruct (decide (k = "~a"%string)) as [->|N1].
  { rewrite Ha in Hk. injection Hk as <-. apply elem_of_cons in Hc as [->| ->%elem_of_list_singleton]; (split_and!; [discriminate|reflexivity|apply not_elem_of_nil]). }
  destruct (decide (k = "o"%string)) as [->|N2].
  { rewrite Ho in Hk. injection Hk as <-. apply elem_of_cons in Hc as [->| ->%elem_of_list_singleton]; (split_and!; [discriminate|reflexivity|]); [apply not_elem_of_nil|]. intros E%elem_of_list_singleton. done. }
  assert (E : delete "~a"%string (delete "o"%string p) !! k = Some cs) by (by rewrite !lookup_delete_ne by done). by rewrite Hd, lookup_empty in E.
Qed.
Lemma rp_edit (e1 e2 : engine glicol) o1 o2 t : rp_replay e1 e2 [] [] ->
  match update glicol o1 e1 t, update glicol o2 e2 t with Ok (_, None), Ok (_, None) => true | _, _ => false end = true ->
  match tame_run glicol 8 e1 [CUpdate glicol o1 t], tame_run glicol 8 e2 [CUpdate glicol o2 t] with Some _, Some _ => true | _, _ => false end = true ->
  match parse (l := glicol) t with
  | Done n => prog_ok_b glicol n = true /\ plain_b glicol (old_ast glicol e1) n = true /\ n !! "~a"%string = Some is_a /\ n !! "o"%string = Some is_o /\ map_to_list (delete "~a"%string (delete "o"%string n)) = []
  | _ => False end -> rp_replay (is_run e1 [CUpdate glicol o1 t]) (is_run e2 [CUpdate glicol o2 t]) [] [].
Proof.
  intros H Hu Hr Hp. destruct (is_step e1 (CUpdate glicol o1 t)) as [b1 S1]; [by destruct (tame_run glicol 8 e1 [CUpdate glicol o1 t])|].
  destruct (is_step e2 (CUpdate glicol o2 t)) as [b2 S2]; [by destruct (tame_run glicol 8 e1 [CUpdate glicol o1 t]), (tame_run glicol 8 e2 [CUpdate glicol o2 t])|].
  set (e1' := is_run e1 _) in *. set (e2' := is_run e2 _) in *. clearbody e1' e2'. cbn [step] in S1, S2. clear Hr.
  destruct (parse t) as [n| |] eqn:E; [|done..]. destruct Hp as (A & B & C & D & F).
  destruct (update glicol o1 e1 t) as [[x1 [err|]]|] eqn:V1; [done| |done]. destruct (update glicol o2 e2 t) as [[x2 [err|]]|] eqn:V2; [done| |done]. injection S1 as -> _. injection S2 as -> _.
  eapply (rp_accepted _ _ _ _ _ _ _ o1 o2 t n); [exact H|exact E|by apply prog_ok_b_spec|by apply plain_b_spec|by apply rp_simple|exact V1|exact V2].
Qed.
Lemma rp_send (e1 e2 : engine glicol) c m : rp_replay e1 e2 [] [] ->
  (forall cmd, cmd ∈ split_on ";" (sfilter (fun ch => negb (is_space ch)) m) -> head (split_on "," cmd) ≠ Some "~input"%string) ->
  match tame_run glicol 8 e1 [CMsg glicol c m], tame_run glicol 8 e2 [CMsg glicol c m] with Some _, Some _ => true | _, _ => false end = true ->
  rp_replay (is_run e1 [CMsg glicol c m]) (is_run e2 [CMsg glicol c m]) [] [].
Proof.
  intros H Hm Hr. destruct (is_step e1 (CMsg glicol c m)) as [b1 S1]; [by destruct (tame_run glicol 8 e1 [CMsg glicol c m])|].
  destruct (is_step e2 (CMsg glicol c m)) as [b2 S2]; [by destruct (tame_run glicol 8 e1 [CMsg glicol c m]), (tame_run glicol 8 e2 [CMsg glicol c m])|].
  set (e1' := is_run e1 _) in *. set (e2' := is_run e2 _) in *. clearbody e1' e2'. cbn [step] in S1, S2.
  destruct (send_msg glicol c e1 m) as [x1|] eqn:V1; [|done]. destruct (send_msg glicol c e2 m) as [x2|] eqn:V2; [|done]. injection S1 as -> _. injection S2 as -> _.
  eapply rp_msg; [exact H|exact Hm|exact V1|exact V2].
Qed.
Lemma rp_play (e1 e2 : engine glicol) sh1 sh2 : rp_replay e1 e2 [] [] -> old_ast glicol e1 !! "~a"%string = Some is_a -> old_ast glicol e1 !! "o"%string = Some is_o ->
  map_to_list (delete "~a"%string (delete "o"%string (old_ast glicol e1))) = [] -> old_ast glicol e1 = old_ast glicol e2 ->
  match tame_run glicol 8 e1 [CNext glicol sh1 []], tame_run glicol 8 e2 [CNext glicol sh2 []] with Some _, Some _ => true | _, _ => false end = true ->
  exists p b1 b2, rp_replay (is_run e1 [CNext glicol sh1 []]) (is_run e2 [CNext glicol sh2 []]) [(p, b1)] [(p, b2)] /\ p ≠ ∅ /\ few_audible p.
Proof.
  intros H Ha Ho Hd Ht Hr. destruct (is_step e1 (CNext glicol sh1 [])) as [b1 S1]; [by destruct (tame_run glicol 8 e1 [CNext glicol sh1 []])|].
  destruct (is_step e2 (CNext glicol sh2 [])) as [b2 S2]; [by destruct (tame_run glicol 8 e1 [CNext glicol sh1 []]), (tame_run glicol 8 e2 [CNext glicol sh2 []])|].
  set (e1' := is_run e1 _) in *. set (e2' := is_run e2 _) in *. clearbody e1' e2'. cbn [step] in S1, S2.
  destruct (next_block glicol 8 _ e1 _) as [[x1 y1]|] eqn:V1; [|done]. destruct (next_block glicol 8 _ e2 _) as [[x2 y2]|] eqn:V2; [|done]. injection S1 as -> _. injection S2 as -> _.
  exists (old_ast glicol e1), y1, y2. split_and!.
  - enough (E : rp_replay e1' e2' [(old_ast glicol e1, y1)] [(old_ast glicol e2, y2)]) by (clear -E Ht; rewrite <- Ht in E; exact E). eapply (rp_block _ _ _ _ _ [] []); [exact H|by apply rp_well|exact V1|exact V2].
  - intros E. by rewrite E in Ha.
  - exists "o"%string, "o"%string. intros k [cs Hk] Hc. apply map_to_list_empty_iff in Hd. destruct (decide (k = "~a"%string)) as [->|N1]; [done|]. destruct (decide (k = "o"%string)) as [->|N2]; [by left|].
    assert (E : delete "~a"%string (delete "o"%string (old_ast glicol e1)) !! k = Some cs) by (by rewrite !lookup_delete_ne by done). by rewrite Hd, lookup_empty in E.
Qed.
Lemma rp_run : exists p b1 b2, rp_replay rp_3 rp_b3 [(p, b1)] [(p, b2)] /\ p ≠ ∅ /\ few_audible p.
Proof.
  assert (H0 : rp_replay (engine_new glicol) rp_b0 [] []) by (apply rp_start; [apply tm_new|apply ew_tame; run_session|reflexivity|run_session|run_session]).
  assert (H1 : rp_replay rp_1 rp_b1 [] []) by (apply rp_edit; [exact H0|run_session|run_session|by_run]).
  assert (H2 : rp_replay rp_2 rp_b2 [] []).
  { apply rp_send; [exact H1| |run_session]. intros cmd Hc. vm_compute in Hc. apply elem_of_list_singleton in Hc as ->. discriminate. }
  apply rp_play; [exact H2|run_session..].
Qed.
Example C82_case :
  (exists p b1 b2, rp_replay rp_3 rp_b3 [(p, b1)] [(p, b2)] /\ p ≠ ∅ /\ few_audible p) /\
  sees [submit is_text; rp_note; play_block] = [Quiet; Quiet; Session.level 12] /\
  sees [submit ew_before; play_block; CReset glicol; CUpdate glicol rp_other is_text; rp_note; rp_turned] = [Quiet; Session.level 5; Quiet; Quiet; Quiet; Session.level 12].
Proof. split_and!; [exact rp_run|run_session|run_session]. Qed.
(** A text with a reference to nothing: its names are plain, and both engines refuse it. *)
Definition rp_bad : string := "o: sig 1 >> mul ~nowhere".
Example C82_verdict_case :
  rp_replay (engine_new glicol) rp_b0 [] [] /\
  (exists n, get_ast c64 no_math rp_bad = Done n /\ prog_ok glicol n /\ plain_names n) /\
  sees [submit rp_bad] = [Refused (NonExistReference "~nowhere")] /\
  sees [submit ew_before; play_block; CReset glicol; CUpdate glicol rp_other rp_bad] = [Quiet; Session.level 5; Quiet; Refused (NonExistReference "~nowhere")].
Proof.
  split_and!.
  - apply rp_start; [apply tm_new|apply ew_tame; run_session|reflexivity|run_session|run_session].
  - assert (H : match parse (l := glicol) rp_bad with Done n => prog_ok_b glicol n = true /\ map_to_list n = [("o"%string, [CConstSig f1; CMul (NRef "~nowhere")])] | _ => False end) by by_run.
    change (get_ast c64 no_math rp_bad) with (parse (l := glicol) rp_bad). destruct (parse (l := glicol) rp_bad) as [n| |]; [|done..]. destruct H as [H1 H2]. exists n. split_and!; [done|by apply prog_ok_b_spec|].
    intros k cs c r Hk Hc Hr. apply (elem_of_map_to_list (K := string) (A := list (comp glicol))) in Hk. assert (Hk' : (k, cs) ∈ [("o"%string, [CConstSig f1; CMul (NRef "~nowhere")])]) by (rewrite <- H2; exact Hk). clear Hk. rename Hk' into Hk. apply elem_of_list_singleton in Hk. injection Hk as -> ->.
    apply elem_of_cons in Hc as [->| ->%elem_of_list_singleton]; [by apply elem_of_nil in Hr|]. apply elem_of_list_singleton in Hr as ->. split; [reflexivity|discriminate].
  - run_session.
  - run_session.
Qed.
Example C82_reset_case : tamely glicol 8 (is_run (engine_new glicol) [CBpm glicol (f_of_Z 90); CSeed glicol 7; submit ew_before; play_block]) /\
  en_sr glicol (is_run (engine_new glicol) [CBpm glicol (f_of_Z 90); CSeed glicol 7; submit ew_before; play_block]) = en_sr glicol (engine_new glicol).
Proof. split; [apply ew_tame; run_session|run_session]. Qed.
(** The general claim: a session after [reset] is like a session of a new engine.  The sample
    rate stays behind. *)
Theorem C82_reset_refuted : exists before session : list (call glicol), drop (length before) (sees (before ++ session)) ≠ sees session /\ last before = Some (CReset glicol).
Proof.
  exists [CSr glicol 12; CReset glicol], [submit "o: imp 3"; play_block]. split; [|done].
  intros H. apply (f_equal is_lefts) in H. revert H. with_strategy transparent [peg_run W W1] vm_compute. discriminate.
Qed.
(** Two runs of the same session may differ once three chains are audible. *)
Theorem C82_order_refuted : exists t sh1 sh2, sees [submit t; CNext glicol sh1 []] ≠ sees [submit t; CNext glicol sh2 []].
Proof.
  exists "a: sig 33554432
b: sig 1
c: sig -33554432", (fun _ => id_shuffle), (fun _ => rev_shuffle).
  intros H. apply (f_equal is_lefts) in H. revert H. with_strategy transparent [peg_run W W1] vm_compute. discriminate.
Qed.
