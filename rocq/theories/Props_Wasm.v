(** * Props_Wasm: what a web page gets from the engine (C55, C56, C70, C71). *)
From Verif Require Import Wasm Props_Blocks Props_Calls Session.
From Coq Require Import Lia.
Local Open Scope nat_scope.

(** ** C56: process *)

Lemma left_then_right_spec (l r : sig) size : length l = length r ->
  left_then_right f0 size [l; r] =
    if Nat.eqb (size mod 2) 0 && Nat.leb size (2 * length l) then Ok (take (Nat.div2 size) l ++ take (Nat.div2 size) r)%list else Panic.
Proof.
  intros Hlr. unfold left_then_right, slice_to, copy_from_slice. cbn [unwrap lookup list_lookup].
  pose proof (Nat.div_mod_eq size 2) as Hd. pose proof (Nat.mod_upper_bound size 2 ltac:(lia)) as Hm.
  rewrite !Nat.div2_div in *. set (h := size / 2) in *.
  rewrite replicate_length. rewrite (proj2 (Nat.leb_le h size)) by lia.
  unfold mbind, res_bind, mret, res_ret. rewrite take_replicate, drop_replicate, !replicate_length, <- Hlr.
  destruct (Nat.leb h (length l)) eqn:E.
  - apply Nat.leb_le in E. rewrite !take_length, <- Hlr, (Nat.min_l h size), (Nat.min_l h (length l)), Nat.eqb_refl by lia.
    destruct (Nat.eqb (size mod 2) 0) eqn:Em.
    + apply Nat.eqb_eq in Em. rewrite (proj2 (Nat.eqb_eq (size - h) h)), (proj2 (Nat.leb_le size (2 * length l))) by lia. done.
    + apply Nat.eqb_neq in Em. rewrite (proj2 (Nat.eqb_neq (size - h) h)) by lia. done.
  - apply Nat.leb_gt in E. rewrite (proj2 (Nat.leb_gt size (2 * length l))) by lia. by rewrite andb_false_r.
Qed.

(** For every history of calls and every size: if the engine plays its block, [process]
    returns the left channel's samples followed by the right channel's, as many of each as
    half the size, exactly when the size is even and at most two blocks; for any other size
    it panics. *)
Theorem C56_left_then_right P get blk e shs e' out size : reachable (glang P get) blk e ->
  next_block (glang P get) blk shs e [] = Ok (e', out) ->
  exists lft rgt : sig, out = [lft; rgt] /\ length lft = p_blk P /\ length rgt = p_blk P /\
    (wasm_process P get blk shs e size <> Panic <-> size mod 2 = 0 /\ size <= 2 * p_blk P) /\
    forall buf, wasm_process P get blk shs e size = Ok (e', buf) ->
      length buf = size /\ forall i, i < size / 2 -> buf !! i = lft !! i /\ buf !! (size / 2 + i) = rgt !! i.
Proof.
  intros He Hn. destruct (C21_block_shape P get blk e shs [] e' out He Hn) as (l & r & -> & Hl & Hr).
  exists l, r. split; [done|]. split; [done|]. split; [done|].
  assert (Hw : wasm_process P get blk shs e size =
     if Nat.eqb (size mod 2) 0 && Nat.leb size (2 * length l) then Ok (e', take (Nat.div2 size) l ++ take (Nat.div2 size) r)%list else Panic).
  { unfold wasm_process. rewrite Hn. unfold mbind, res_bind. etransitivity.
    { exact (f_equal (fun z : res sig => match z with Ok a => mret (e', a) | Panic => Panic end)
               (left_then_right_spec l r size (eq_trans Hl (eq_sym Hr)))). }
    by destruct (_ && _). }
  rewrite Hw, Hl. destruct (Nat.eqb (size mod 2) 0) eqn:Em; cbn [andb].
  - apply Nat.eqb_eq in Em. destruct (Nat.leb size (2 * p_blk P)) eqn:El.
    + apply Nat.leb_le in El. split; [by split|]. intros buf [= <-].
      pose proof (Nat.div_mod_eq size 2) as Hd. rewrite !Nat.div2_div. set (h := size / 2) in *.
      split; [rewrite app_length, !take_length; lia|]. intros i Hi. split.
      * rewrite lookup_app_l by (rewrite take_length; lia). by apply lookup_take.
      * rewrite lookup_app_r by (rewrite take_length; lia). rewrite take_length, (Nat.min_l h (length l)) by lia.
        replace (h + i - h) with i by lia. by apply lookup_take.
    + apply Nat.leb_gt in El. split; [|done]. split; [done|]. intros [_ ?]. lia.
  - apply Nat.eqb_neq in Em. split; [|done]. split; [done|]. by intros [? _].
Qed.
Print Assumptions C56_left_then_right.

(** The page asks for 256 samples of an engine with blocks of 128 (glicol-engine.js:33,
    152-173) and gives the first 128 to the left and the others to the right speaker. *)
Corollary C56_speakers P get e shs e' out : p_blk P = 128 -> reachable (glang P get) 128 e ->
  next_block (glang P get) 128 shs e [] = Ok (e', out) ->
  exists lft rgt buf : sig, out = [lft; rgt] /\ wasm_process P get 128 shs e 256 = Ok (e', buf) /\
    take 128 buf = lft /\ take 128 (drop 128 buf) = rgt.
Proof.
  intros Hp He Hn. destruct (C21_block_shape P get 128 e shs [] e' out He Hn) as (l & r & -> & Hl & Hr).
  exists l, r, (l ++ r)%list. split; [done|]. rewrite Hp in Hl, Hr. split; [|split].
  - unfold wasm_process. rewrite Hn. unfold mbind, res_bind. etransitivity.
    { exact (f_equal (fun z : res sig => match z with Ok a => mret (e', a) | Panic => Panic end)
               (left_then_right_spec l r 256 (eq_trans Hl (eq_sym Hr)))). }
    rewrite Hl. change (Nat.eqb (256 mod 2) 0 && Nat.leb 256 (2 * 128)) with true. change (Nat.div2 256) with 128. cbv iota.
    rewrite <- Hl at 1. rewrite <- Hr. by rewrite !firstn_all.
  - rewrite <- Hl at 1. apply take_app.
  - rewrite (drop_app_alt l r 128) by done. apply firstn_all2. lia.
Qed.


(** A stereo program, cut to four samples: the left channel is silent. *)
Definition pan_engine : engine glicol :=
  match update glicol id_orders (engine_new glicol) "o: sig 3 >> pan 1.0" with Ok (e, _) => e | Panic => engine_new glicol end.
Example C56_case : reachable glicol 8 pan_engine /\
  match wasm_process demo (get_ast c64 no_math) 8 (fun _ => id_shuffle) pan_engine 4 with
  | Ok (_, b) => b = [f0; f0; f_of_Z 3; f_of_Z 3]
  | Panic => False
  end.
Proof.
  split.
  - unfold pan_engine. destruct (update glicol id_orders (engine_new glicol) "o: sig 3 >> pan 1.0") as [[e oer]|] eqn:E.
    + exists [submit "o: sig 3 >> pan 1.0"], [match oer with None => ODone glicol | Some er => OError glicol er end].
      cbn [run submit step]. rewrite E. by destruct oer.
    + by exists [], [].
  - run_session.
Qed.

(** ** C55: the status of an update *)

(** The bytes of a text that fit in a status, padded with zeros. *)
Definition shown (m : list Z) : list Z := (take 254 m ++ replicate (254 - length m) 0%Z)%list.

Lemma write_err_spec r er : write_err_to_buf r er (replicate RES_BUFFER_SIZE 0%Z) =
  Ok (error_class er :: 0%Z :: shown (bytes_of (error_message r er))).
Proof.
  unfold write_err_to_buf. change (replicate RES_BUFFER_SIZE 0%Z) with (0%Z :: 0%Z :: replicate 254 0%Z).
  cbv zeta. generalize (bytes_of (error_message r er)) as m. intros m.
  change (<[0:=error_class er]> (0%Z :: 0%Z :: replicate 254 0%Z)) with (error_class er :: 0%Z :: replicate 254 0%Z).
  cbn [length Nat.ltb Nat.leb drop take]. change (RES_BUFFER_SIZE - 2) with 254.
  unfold slice_to, copy_from_slice, mbind, res_bind, mret, res_ret. rewrite drop_0, take_0, replicate_length.
  rewrite (proj2 (Nat.leb_le (min (length m) 254) 254)), (proj2 (Nat.leb_le (min (length m) 254) (length m))) by lia.
  rewrite take_replicate, replicate_length, take_length. rewrite (proj2 (Nat.eqb_eq _ _)) by lia.
  unfold shown. cbn [app]. rewrite drop_replicate. f_equal. f_equal. f_equal. f_equal.
  - destruct (decide (length m <= 254)).
    + rewrite Nat.min_l by lia. by rewrite firstn_all, firstn_all2.
    + by rewrite Nat.min_r by lia.
  - f_equal. lia.
Qed.

Lemma shown_length m : length (shown m) = 254.
Proof. unfold shown. rewrite app_length, take_length, replicate_length. lia. Qed.

(** The classes and texts as the page gets them (1: syntax, 2: sample, 3: reference). *)
Definition class_code (er : engine_error) (b : Z) : Prop :=
  match er with ParsingError => b = 1%Z | NonExistSample _ => b = 2%Z | NonExistReference _ => b = 3%Z end.
Definition plain_message (er : engine_error) (t : string) : Prop :=
  match er with
  | ParsingError => True
  | NonExistSample n => t = ("There is no sample named " ++ n)%string
  | NonExistReference n => t = ("There is no reference named " ++ n)%string
  end.

(** For every engine, program text and report: the call never writes out of bounds (it panics
    only if the engine's update does); after a success all 256 bytes are zero; after a failure
    byte 0 names the class of the error, byte 1 is zero, and the bytes from 2 on are the
    first 254 bytes of the message followed by zeros. *)
Theorem C55_status (L : lang) o r e code :
  match update L o e code with
  | Panic => wasm_update L o r e code = Panic
  | Ok (e', oer) => exists st, wasm_update L o r e code = Ok (e', st) /\ length st = 256 /\
      match oer with
      | None => forall i, i < 256 -> st !! i = Some 0%Z
      | Some er => (exists b, st !! 0 = Some b /\ class_code er b) /\ plain_message er (error_message r er) /\ st !! 1 = Some 0%Z /\
          (forall i, i < 254 -> i < length (bytes_of (error_message r er)) ->
             st !! (2 + i) = bytes_of (error_message r er) !! i) /\
          (forall i, i < 254 -> length (bytes_of (error_message r er)) <= i -> st !! (2 + i) = Some 0%Z)
      end
  end.
Proof.
  unfold wasm_update. destruct (update L o e code) as [[e' [er|]]|]; [| |done].
  - rewrite write_err_spec. unfold mbind, res_bind. eexists. split; [reflexivity|].
    split; [simpl; by rewrite shown_length|]. split; [eexists; split; [reflexivity|by destruct er]|]. split; [by destruct er|]. split; [done|].
    generalize (bytes_of (error_message r er)) as m. intros m. split; intros i Hi Hm.
    + change (shown m !! i = m !! i). unfold shown. rewrite lookup_app_l by (rewrite take_length; lia).
      by apply lookup_take.
    + change (shown m !! i = Some 0%Z). unfold shown. rewrite lookup_app_r by (rewrite take_length; lia).
      apply lookup_replicate_2. rewrite take_length. lia.
  - eexists. split; [reflexivity|]. split; [apply replicate_length|]. intros i Hi. by apply lookup_replicate_2.
Qed.
Print Assumptions C55_status.

(** The classes are different for different kinds of error and never zero, so byte 0 alone
    tells success from failure (glicol-engine.js:167). *)
Theorem C55_class er1 er2 : error_class er1 <> 0%Z /\
  (error_class er1 = error_class er2 <->
   match er1, er2 with
   | ParsingError, ParsingError | NonExistSample _, NonExistSample _ | NonExistReference _, NonExistReference _ => True
   | _, _ => False end).
Proof. by destruct er1, er2. Qed.

Lemma bytes_of_app a b : bytes_of (a ++ b) = (bytes_of a ++ bytes_of b)%list.
Proof. unfold bytes_of. induction a as [|c a IH]; [done|]. simpl. f_equal. exact IH. Qed.
Lemma bytes_of_length s : length (bytes_of s) = String.length s.
Proof. unfold bytes_of. rewrite map_length. induction s; simpl; auto. Qed.
Lemma bytes_of_inj a b : bytes_of a = bytes_of b -> a = b.
Proof.
  unfold bytes_of. revert b. induction a as [|c a IH]; intros [|d b]; try done. simpl. intros [= H1 H2].
  apply N2Z.inj in H1. f_equal; [|by apply IH]. rewrite <- (ascii_N_embedding c), <- (ascii_N_embedding d). by f_equal.
Qed.
Lemma filter_all (p : Z -> bool) l : Forall (fun x => p x = true) l -> List.filter p l = l.
Proof. induction 1 as [|x l Hx _ IH]; [done|]. simpl. by rewrite Hx, IH. Qed.
Lemma js_info_shown a b m : ~ (0%Z ∈ m) -> js_info (a :: b :: shown m) = take 254 m.
Proof.
  intros H0. unfold js_info. change (drop 2 (a :: b :: shown m)) with (shown m). unfold shown. rewrite List.filter_app.
  rewrite filter_all.
  - assert (Hz : forall n, List.filter (fun v => negb (Z.eqb v 0)) (replicate n 0%Z) = []) by (induction n; simpl; auto).
    by rewrite Hz, app_nil_r.
  - apply Forall_forall. intros x Hx. apply negb_true_iff, Z.eqb_neq. intros ->. apply H0.
    rewrite <- (take_drop 254 m). apply elem_of_app. by left.
Qed.

(** What the page shows: the first 254 bytes of the message. *)
Theorem C55_page_text (L : lang) o r e code e' er st :
  update L o e code = Ok (e', Some er) -> wasm_update L o r e code = Ok (e', st) ->
  ~ (0%Z ∈ bytes_of (error_message r er)) -> js_info st = take 254 (bytes_of (error_message r er)).
Proof.
  intros Hu. unfold wasm_update. rewrite Hu, write_err_spec. unfold mbind, res_bind. intros [= <-]. apply js_info_shown.
Qed.
(** A missing reference or sample with a name of at most 200 bytes: the page's text determines
    the name. *)
Theorem C55_page_names_error (L : lang) o r1 r2 e code1 code2 e1 e2 n1 n2 st1 st2 :
  update L o e code1 = Ok (e1, Some (NonExistReference n1)) -> update L o e code2 = Ok (e2, Some (NonExistReference n2)) ->
  wasm_update L o r1 e code1 = Ok (e1, st1) -> wasm_update L o r2 e code2 = Ok (e2, st2) ->
  String.length n1 <= 200 -> String.length n2 <= 200 -> ~ (0%Z ∈ bytes_of n1) -> ~ (0%Z ∈ bytes_of n2) ->
  js_info st1 = js_info st2 -> n1 = n2.
Proof.
  intros U1 U2 W1 W2 L1 L2 Z1 Z2 Hj.
  assert (Hz : forall n, ~ (0%Z ∈ bytes_of n) -> ~ (0%Z ∈ bytes_of ("There is no reference named " ++ n))).
  { intros n Hn. rewrite bytes_of_app. intros [H|H]%elem_of_app; [|done]. revert H.
    enough (He : 0%Z ∉ bytes_of "There is no reference named ") by exact He. apply (bool_decide_unpack (0%Z ∉ _)). vm_compute. exact I. }
  rewrite (C55_page_text L o r1 e code1 e1 _ st1 U1 W1 (Hz _ Z1)) in Hj.
  rewrite (C55_page_text L o r2 e code2 e2 _ st2 U2 W2 (Hz _ Z2)) in Hj.
  cbn [error_message] in Hj.
  assert (Hl : forall n, String.length n <= 200 -> length (bytes_of ("There is no reference named " ++ n)) <= 254).
  { intros n Hn. rewrite bytes_of_app, app_length, !bytes_of_length. simpl. lia. }
  rewrite !firstn_all2 in Hj by auto. rewrite !bytes_of_app in Hj. apply app_inv_head in Hj. by apply bytes_of_inj.
Qed.

Definition no_report : parse_report := ParseReport "0" "1" "1" [] [].
Example C55_case :
  match wasm_update glicol id_orders no_report (engine_new glicol) "o: sig 3 >> mul ~zed" with
  | Ok (_, st) => st = ([3; 0]%Z ++ bytes_of "There is no reference named ~zed" ++ replicate 222 0%Z)%list
  | Panic => False
  end.
Proof. run_session. Qed.

(** ** C71: the page reads the parts of a parse error *)

Section bracket.
Context (lb : Z).
(** A separator is a word followed by an opening bracket; [a] is a text without one. *)
Lemma is_prefix_spec sep s : is_prefix sep s = true <-> exists t, s = (sep ++ t)%list.
Proof.
  revert s. induction sep as [|a sep IH]; intros s; simpl; [split; eauto|]. destruct s as [|b s].
  - split; [done|]. by intros [? ?].
  - rewrite andb_true_iff, Z.eqb_eq, IH. split.
    + intros [-> [t ->]]. by exists t.
    + intros [t [= -> ->]]. eauto.
Qed.
Lemma is_prefix_bracket w a t : ~ (lb ∈ a) -> ~ (lb ∈ w) ->
  is_prefix (w ++ [lb])%list (a ++ lb :: t)%list = true -> a = w.
Proof.
  intros Ha Hw [u Hu]%is_prefix_spec. rewrite <- app_assoc in Hu. simpl in Hu. revert w Hw Hu.
  induction a as [|x a IH]; intros [|y w] Hw Hu; simpl in Hu; [done| | |].
  - injection Hu as -> _. exfalso. apply Hw. by left.
  - injection Hu as -> _. exfalso. apply Ha. by left.
  - injection Hu as -> Hu. f_equal. apply IH; [|by intros ?; apply Hw; right|done]. intros ?. apply Ha. by right.
Qed.
Lemma cut_found w a t : ~ (lb ∈ a) -> ~ (lb ∈ w) -> cut (w ++ [lb]) (a ++ w ++ lb :: t) = Some (a, t).
Proof.
  intros Ha Hw. induction a as [|x a IH].
  - simpl. assert (E : is_prefix (w ++ [lb]) (w ++ lb :: t) = true).
    { apply is_prefix_spec. exists t. by rewrite <- app_assoc. }
    destruct (w ++ lb :: t)%list as [|z l] eqn:Ez; [by destruct w|]. cbn [cut]. rewrite <- Ez in E |- *. rewrite E.
    f_equal. f_equal. replace (w ++ lb :: t)%list with ((w ++ [lb]) ++ t)%list by (by rewrite <- app_assoc). apply drop_app.
  - cbn [app cut]. destruct (is_prefix (w ++ [lb]) (x :: a ++ w ++ lb :: t)) eqn:E.
    + exfalso. change (x :: a ++ w ++ lb :: t)%list with ((x :: a) ++ w ++ lb :: t)%list in E.
      rewrite app_assoc in E. apply is_prefix_bracket in E; [|intros [?|?]%elem_of_app; done|done].
      apply (f_equal length) in E. rewrite app_length in E. simpl in E. lia.
    + rewrite IH; [done|]. intros ?. apply Ha. by right.
Qed.
(** The word is not at the end of [a]: the search goes on after the bracket. *)
Definition ends (w a : list Z) : Prop := exists b, a = (b ++ w)%list.
Lemma cut_skip w a t : ~ (lb ∈ a) -> ~ (lb ∈ w) -> ~ ends w a ->
  cut (w ++ [lb]) (a ++ lb :: t) = match cut (w ++ [lb]) t with Some p => Some (a ++ lb :: p.1, p.2)%list | None => None end.
Proof.
  intros Ha Hw Hn. induction a as [|x a IH].
  - cbn [app cut]. destruct (is_prefix (w ++ [lb]) (lb :: t)) eqn:E.
    + exfalso. apply (is_prefix_bracket w [] t) in E; [|by intros ?%elem_of_nil|done]. apply Hn. exists []. by subst w.
    + unfold mbind, option_bind. by destruct (cut (w ++ [lb]) t).
  - cbn [app cut]. destruct (is_prefix (w ++ [lb]) (x :: a ++ lb :: t)) eqn:E.
    + exfalso. apply (is_prefix_bracket w (x :: a) t) in E; [|done|done]. apply Hn. exists []. by subst w.
    + rewrite IH.
      * unfold mbind, option_bind. by destruct (cut (w ++ [lb]) t).
      * intros ?. apply Ha. by right.
      * intros [b ->]. apply Hn. by exists (x :: b).
Qed.
Lemma cut_none w a : ~ (lb ∈ a) -> cut (w ++ [lb]) a = None.
Proof.
  intros Ha. induction a as [|x a IH]; cbn [cut].
  - destruct (is_prefix (w ++ [lb]) []) eqn:E; [|done]. apply is_prefix_spec in E as [t E]. by destruct w.
  - destruct (is_prefix (w ++ [lb]) (x :: a)) eqn:E.
    + exfalso. apply is_prefix_spec in E as [t E]. apply Ha. rewrite E. rewrite !elem_of_app. left. right. by left.
    + rewrite IH; [done|]. intros ?. apply Ha. by right.
Qed.
Lemma ends_app w a b : length w <= length b -> ends w (a ++ b) <-> ends w b.
Proof.
  intros Hl. split.
  - intros [c Hc]. exists (take (length b - length w) b). apply (f_equal (drop (length c))) in Hc as Hd.
    rewrite drop_app in Hd.
    assert (Hlen : length (a ++ b) = length (c ++ w)) by (by f_equal). rewrite !app_length in Hlen.
    rewrite drop_app_ge in Hd by lia. replace (length c - length a) with (length b - length w) in Hd by lia.
    etransitivity; [symmetry; apply (take_drop (length b - length w))|]. by rewrite Hd.
  - intros [c ->]. exists (a ++ c)%list. by rewrite app_assoc.
Qed.
Definition ends_b (w a : list Z) : bool := is_prefix (rev w) (rev a).
Lemma ends_b_spec w a : ends_b w a = true <-> ends w a.
Proof.
  unfold ends_b. rewrite is_prefix_spec. split.
  - intros [t H]. exists (rev t). rewrite <- (rev_involutive a), H, rev_app_distr, rev_involutive. done.
  - intros [b ->]. exists (rev b). apply rev_app_distr.
Qed.

(** A text whose brackets end the given segments. *)
Definition segs (l : list (list Z)) (z : list Z) : list Z := foldr (fun a t => a ++ lb :: t)%list z l.
Fixpoint after (w : list Z) (l : list (list Z)) (z : list Z) : option (list Z) :=
  match l with [] => None | a :: r => if ends_b w a then Some (segs r z) else after w r z end.
Lemma cut_segs w l z : ~ (lb ∈ w) -> Forall (fun a => ~ (lb ∈ a)) l -> ~ (lb ∈ z) ->
  snd <$> cut (w ++ [lb]) (segs l z) = after w l z.
Proof.
  intros Hw Hl Hz. induction Hl as [|a r Ha _ IH]; [cbn [segs foldr after]; by rewrite cut_none|].
  cbn [segs foldr after]. fold (segs r z). destruct (ends_b w a) eqn:E.
  - apply ends_b_spec in E as [b ->]. rewrite <- app_assoc. rewrite cut_found; [done| |done].
    intros ?. apply Ha, elem_of_app. by left.
  - rewrite cut_skip; [|done|done|]. { rewrite <- IH. by destruct (cut (w ++ [lb]) (segs r z)). }
    rewrite <- ends_b_spec, E. done.
Qed.
Lemma ends_b_app w a b : length w <= length b -> ends_b w (a ++ b) = ends_b w b.
Proof.
  intros H. pose proof (ends_app w a b H) as He. rewrite <- !ends_b_spec in He.
  destruct (ends_b w (a ++ b)), (ends_b w b); try done; [symmetry|]; by apply He.
Qed.
Lemma second_segs w l z x : ~ (lb ∈ w) -> Forall (fun a => ~ (lb ∈ a)) l -> ~ (lb ∈ z) ->
  after w l z = Some x -> snd <$> cut (w ++ [lb]) x = None -> second (w ++ [lb]) (segs l z) = Some x.
Proof.
  intros Hw Hl Hz Ha Hx. unfold second, before, mbind, option_bind. rewrite <- (cut_segs w l z Hw Hl Hz) in Ha.
  destruct (cut (w ++ [lb]) (segs l z)) as [[b y]|]; [|done]. simpl in Ha. injection Ha as ->. simpl.
  by destruct (cut (w ++ [lb]) x).
Qed.
End bracket.

(** Searching in a text that has been cut short finds nothing new. *)
Lemma cut_spec sep s a b : cut sep s = Some (a, b) -> s = (a ++ sep ++ b)%list.
Proof.
  revert a b. induction s as [|x s IH]; intros a b; cbn [cut].
  - destruct (is_prefix sep []) eqn:E; [|done]. intros [= <- <-]. apply is_prefix_spec in E as [t E]. by destruct sep.
  - destruct (is_prefix sep (x :: s)) eqn:E.
    + intros [= <- <-]. apply is_prefix_spec in E as [t E]. rewrite E. cbn [app]. by rewrite drop_app.
    + unfold mbind, option_bind. destruct (cut sep s) as [[c d]|]; [|done]. intros [= <- <-]. cbn [app]. f_equal. by apply IH.
Qed.
Lemma is_prefix_take sep s n : is_prefix sep (take n s) = true -> is_prefix sep s = true.
Proof. intros [t H]%is_prefix_spec. apply is_prefix_spec. exists (t ++ drop n s)%list. by rewrite app_assoc, <- H, take_drop. Qed.
Lemma cut_take sep s n a b : cut sep (take n s) = Some (a, b) -> exists b', cut sep s = Some (a, b').
Proof.
  revert n a b. induction s as [|x s IH]; intros n a b H; [rewrite take_nil in H; eauto|].
  cbn [cut]. destruct (is_prefix sep (x :: s)) eqn:E.
  - destruct n as [|n]; cbn [take cut] in H.
    + destruct (is_prefix sep []) eqn:E2; [|done]. injection H as <- _. eauto.
    + destruct (is_prefix sep (x :: take n s)) eqn:E2; [injection H as <- _; eauto|].
      unfold mbind, option_bind in H. destruct (cut sep (take n s)) as [[c d]|] eqn:E3; [|done]. injection H as <- <-.
      (* the text would begin with the separator, but its beginning does not *)
      exfalso. apply cut_spec in E3. apply is_prefix_spec in E as [t Et]. assert (He : take (S n) (x :: s) = x :: c ++ sep ++ d) by (simpl; by rewrite E3).
      assert (Hl : length sep <= length (take (S n) (x :: s))) by (rewrite He; simpl; rewrite !app_length; lia).
      assert (is_prefix sep (take (S n) (x :: s)) = true); [|simpl in *; congruence].
      apply is_prefix_spec. rewrite Et. rewrite take_length in Hl. exists (take (S n - length sep) t).
      rewrite take_app_ge by lia. done.
  - destruct n as [|n]; cbn [take cut] in H.
    + destruct (is_prefix sep []) eqn:E2; [|done]. destruct sep; [|done]. done.
    + destruct (is_prefix sep (x :: take n s)) eqn:E2.
      { apply (is_prefix_take sep (x :: s) (S n)) in E2. congruence. }
      unfold mbind, option_bind in H |- *. destruct (cut sep (take n s)) as [[c d]|] eqn:E3; [|done]. injection H as <- <-.
      destruct (IH _ _ _ E3) as [b' ->]. eauto.
Qed.
Lemma cut_take_length sep s n a b a' b' : cut sep (take n s) = Some (a, b) -> cut sep s = Some (a', b') ->
  length s - length b' <= n.
Proof.
  intros H1 H2. destruct (cut_take _ _ _ _ _ H1) as [b2 H3]. rewrite H2 in H3. injection H3 as -> ->.
  apply cut_spec in H1, H2. apply (f_equal length) in H1, H2. rewrite take_length, !app_length in H1. rewrite !app_length in H2. lia.
Qed.

(** Plain words: no brackets, no zero bytes (decimal numbers and rule names). *)
Definition plain (s : string) : Prop := Forall (fun v => v <> 91 /\ v <> 93 /\ v <> 0)%Z (bytes_of s).
Definition plain_report (r : parse_report) : Prop :=
  plain (pr_pos r) /\ plain (pr_line r) /\ plain (pr_col r) /\ Forall plain (pr_positives r) /\ Forall plain (pr_negatives r).

Lemma plain_app a b : plain a -> plain b -> plain (a ++ b).
Proof. unfold plain. intros. rewrite bytes_of_app. by apply Forall_app. Qed.
Lemma plain_joined l : Forall plain l -> plain (joined l).
Proof.
  induction 1 as [|n l Hn Hl IH]; [constructor|]. destruct l as [|m l]; [done|].
  change (joined (n :: m :: l)) with (n ++ ", " ++ joined (m :: l))%string. apply plain_app; [done|]. apply plain_app; [|done].
  unfold plain. change (bytes_of ", ") with [44; 32]%Z. constructor; [lia|]. constructor; [lia|constructor].
Qed.

Definition m_segs (r : parse_report) : list (list Z) :=
  [bytes_of "pos"; bytes_of (pr_pos r) ++ bytes_of "], line"; bytes_of (pr_line r) ++ bytes_of "], col";
   bytes_of (pr_col r) ++ bytes_of "], positives"; bytes_of (joined (pr_positives r)) ++ bytes_of "], negatives"]%list.
Definition m_last (r : parse_report) : list Z := (bytes_of (joined (pr_negatives r)) ++ bytes_of "]")%list.
Lemma parse_message_segs r : bytes_of (parse_message r) = segs 91 (m_segs r) (m_last r).
Proof.
  unfold parse_message. rewrite !bytes_of_app. unfold m_segs, m_last, segs. cbn [foldr]. rewrite <- !app_assoc. reflexivity.
Qed.
Lemma plain_no v s : plain s -> (v = 91 \/ v = 93 \/ v = 0)%Z -> ~ (v ∈ bytes_of s).
Proof. intros H Hv Hin. unfold plain in H. rewrite Forall_forall in H. apply H in Hin. lia. Qed.
Lemma word_no v s : existsb (Z.eqb v) (bytes_of s) = false -> ~ (v ∈ bytes_of s).
Proof.
  intros H Hin. assert (existsb (Z.eqb v) (bytes_of s) = true); [|congruence]. apply existsb_exists.
  exists v. split; [by apply elem_of_list_In|apply Z.eqb_refl].
Qed.
Lemma m_segs_no r : plain_report r -> Forall (fun a => ~ (91%Z ∈ a)) (m_segs r) /\ ~ (91%Z ∈ m_last r).
Proof.
  intros (H1 & H2 & H3 & H4 & H5). apply plain_joined in H4, H5. split.
  - unfold m_segs. repeat constructor; rewrite ?elem_of_app; try (intros [H|H]; revert H);
      first [apply plain_no; [done|by left]|apply word_no; reflexivity].
  - unfold m_last. rewrite elem_of_app. intros [H|H]; revert H; first [apply plain_no; [done|by left]|apply word_no; reflexivity].
Qed.
Lemma before_rb s t : ~ (93%Z ∈ s) -> before (bytes_of "]") (s ++ bytes_of "]" ++ t) = s.
Proof.
  intros Hs. unfold before. change (bytes_of "]") with ([] ++ [93%Z])%list at 1. change (bytes_of "]" ++ t)%list with ([] ++ 93%Z :: t)%list.
  rewrite cut_found; [done|done|]. by intros ?%elem_of_nil.
Qed.
Lemma field_of r name x t s : plain_report r -> ~ (91%Z ∈ bytes_of name) -> plain s ->
  after 91 (bytes_of name) (m_segs r) (m_last r) = Some x -> snd <$> cut (bytes_of name ++ [91%Z]) x = None ->
  x = (bytes_of s ++ bytes_of "]" ++ t)%list ->
  field (name ++ "[") (bytes_of (parse_message r)) = Some (bytes_of s).
Proof.
  intros Hr Hn Hs Ha Hc ->. destruct (m_segs_no r Hr) as [H1 H2]. unfold field. rewrite bytes_of_app, parse_message_segs.
  change (bytes_of "[") with [91%Z]. rewrite (second_segs 91 _ _ _ _ Hn H1 H2 Ha Hc). unfold mbind, option_bind.
  rewrite before_rb; [done|]. apply plain_no; [done|]. by right; left.
Qed.


(** The segment that a field's name ends is number [i]. *)
Lemma field_at r name i s t : plain_report r -> ~ (91%Z ∈ bytes_of name) -> plain s ->
  after 91 (bytes_of name) (m_segs r) (m_last r) = Some (segs 91 (drop i (m_segs r)) (m_last r)) ->
  after 91 (bytes_of name) (drop i (m_segs r)) (m_last r) = None ->
  segs 91 (drop i (m_segs r)) (m_last r) = (bytes_of s ++ bytes_of "]" ++ t)%list ->
  field (name ++ "[") (bytes_of (parse_message r)) = Some (bytes_of s).
Proof.
  intros Hr Hn Hs Ha Hc Hx. destruct (m_segs_no r Hr) as [H1 H2].
  eapply field_of; [done|done|done|exact Ha| |exact Hx]. rewrite cut_segs; [done|done|by apply Forall_drop|done].
Qed.
Lemma ends_b_last w a b x y : last w = Some x -> last b = Some y -> x <> y -> ends_b w (a ++ b) = false.
Proof.
  intros [w' ->]%last_Some [b' ->]%last_Some Hxy. unfold ends_b. rewrite app_assoc, !rev_app_distr. cbn [rev app is_prefix].
  by rewrite (proj2 (Z.eqb_neq x y) Hxy).
Qed.
Ltac ends_step := match goal with
  | |- context [if ends_b ?w (?a ++ ?b) then _ else _] =>
      rewrite (ends_b_last w a b _ _ eq_refl eq_refl) by (vm_compute; done); cbv iota
  | |- context [if ends_b ?w (?a ++ ?b) then _ else _] =>
      rewrite (ends_b_app w a b) by (vm_compute; lia);
      let v := eval vm_compute in (ends_b w b) in change (ends_b w b) with v; cbv iota
  | |- context [if ends_b ?w (bytes_of ?s) then _ else _] =>
      let a := constr:(bytes_of s) in let v := eval vm_compute in (ends_b w a) in change (ends_b w a) with v; cbv iota
  end.
Ltac ends_all := unfold m_segs; cbn [after drop]; rewrite ?drop_0; repeat ends_step; try reflexivity.
Lemma fields_message r : plain_report r ->
  js_fields (bytes_of (parse_message r)) = Some [bytes_of (pr_pos r); bytes_of (pr_line r); bytes_of (pr_col r);
                                 bytes_of (joined (pr_positives r)); bytes_of (joined (pr_negatives r))].
Proof.
  intros Hr. pose proof Hr as (H1 & H2 & H3 & H4 & H5). apply plain_joined in H4, H5.
  assert (E1 : field ("pos" ++ "[") (bytes_of (parse_message r)) = Some (bytes_of (pr_pos r))).
  { eapply (field_at r "pos" 1); [done|by apply word_no|done|ends_all|ends_all|].
    unfold m_segs. cbn [drop]. rewrite ?drop_0. unfold segs. cbn [foldr]. rewrite <- !app_assoc. reflexivity. }
  assert (E2 : field ("line" ++ "[") (bytes_of (parse_message r)) = Some (bytes_of (pr_line r))).
  { eapply (field_at r "line" 2); [done|by apply word_no|done|ends_all|ends_all|].
    unfold m_segs. cbn [drop]. rewrite ?drop_0. unfold segs. cbn [foldr]. rewrite <- !app_assoc. reflexivity. }
  assert (E3 : field ("col" ++ "[") (bytes_of (parse_message r)) = Some (bytes_of (pr_col r))).
  { eapply (field_at r "col" 3); [done|by apply word_no|done|ends_all|ends_all|].
    unfold m_segs. cbn [drop]. rewrite ?drop_0. unfold segs. cbn [foldr]. rewrite <- !app_assoc. reflexivity. }
  assert (E4 : field ("positives" ++ "[") (bytes_of (parse_message r)) = Some (bytes_of (joined (pr_positives r)))).
  { eapply (field_at r "positives" 4); [done|by apply word_no|done|ends_all|ends_all|].
    unfold m_segs. cbn [drop]. rewrite ?drop_0. unfold segs. cbn [foldr]. rewrite <- !app_assoc. reflexivity. }
  assert (E5 : field ("negatives" ++ "[") (bytes_of (parse_message r)) = Some (bytes_of (joined (pr_negatives r)))).
  { eapply (field_at r "negatives" 5); [done|by apply word_no|done|ends_all|ends_all|].
    unfold m_segs. cbn [drop]. rewrite ?drop_0. unfold segs. cbn [foldr]. unfold m_last. rewrite <- (app_nil_r (bytes_of "]")) at 1. reflexivity. }
  unfold js_fields. change (field "pos[") with (field ("pos" ++ "[")). change (field "line[") with (field ("line" ++ "[")).
  change (field "col[") with (field ("col" ++ "[")). change (field "positives[") with (field ("positives" ++ "[")).
  change (field "negatives[") with (field ("negatives" ++ "[")). rewrite E1, E2, E3, E4, E5. reflexivity.
Qed.
Lemma message_no_nul r : plain_report r -> ~ (0%Z ∈ bytes_of (parse_message r)).
Proof.
  intros (H1 & H2 & H3 & H4 & H5). apply plain_joined in H4, H5. unfold parse_message. rewrite !bytes_of_app.
  rewrite !elem_of_app. intros H. repeat (destruct H as [H|H]; [revert H; first [apply word_no; reflexivity|apply plain_no; [done|by right; right]]|]).
  revert H. apply word_no. reflexivity.
Qed.

(** For every report made of plain words whose message fits in 254 bytes, the page reads back
    the location, line, column and both lists of rules exactly. *)
Theorem C71_fields_partial (L : lang) o r e code e' st : plain_report r ->
  String.length (parse_message r) <= 254 -> update L o e code = Ok (e', Some ParsingError) ->
  wasm_update L o r e code = Ok (e', st) ->
  js_fields (js_info st) = Some [bytes_of (pr_pos r); bytes_of (pr_line r); bytes_of (pr_col r);
                                 bytes_of (joined (pr_positives r)); bytes_of (joined (pr_negatives r))].
Proof.
  intros Hr Hl Hu Hw. rewrite (C55_page_text L o r e code e' _ st Hu Hw (message_no_nul r Hr)). cbn [error_message].
  rewrite firstn_all2 by (by rewrite bytes_of_length). by apply fields_message.
Qed.
Print Assumptions C71_fields_partial.

(** The message up to the bracket that opens the last list. *)
Definition message_head (r : parse_report) : string :=
  ("pos[" ++ pr_pos r ++ "], line[" ++ pr_line r ++ "], col[" ++ pr_col r ++ "], positives[" ++
   joined (pr_positives r) ++ "], negatives[")%string.
(** Whenever that part alone is longer than 254 bytes the page throws instead of showing the
    error. *)
Theorem C71_long_report_throws (L : lang) o r e code e' st : plain_report r ->
  254 < String.length (message_head r) -> update L o e code = Ok (e', Some ParsingError) ->
  wasm_update L o r e code = Ok (e', st) -> js_fields (js_info st) = None.
Proof.
  intros Hr Hl Hu Hw. rewrite (C55_page_text L o r e code e' _ st Hu Hw (message_no_nul r Hr)). cbn [error_message].
  enough (Hf : field "negatives[" (take 254 (bytes_of (parse_message r))) = None).
  { unfold js_fields, mbind, option_bind. rewrite Hf. repeat case_match; done. }
  unfold field, second, mbind, option_bind. destruct (cut (bytes_of "negatives[") _) as [[a b]|] eqn:E; [|done]. exfalso.
  destruct (m_segs_no r Hr) as [H1 H2].
  assert (Ha : snd <$> cut (bytes_of "negatives" ++ [91%Z]) (segs 91 (m_segs r) (m_last r)) = Some (m_last r)).
  { rewrite cut_segs; [ends_all|by apply word_no|done|done]. }
  change (bytes_of "negatives" ++ [91%Z])%list with (bytes_of "negatives[") in Ha. rewrite <- parse_message_segs in Ha.
  destruct (cut (bytes_of "negatives[") (bytes_of (parse_message r))) as [[a' b']|] eqn:E'; [|done]. simpl in Ha. injection Ha as ->.
  pose proof (cut_take_length _ _ _ _ _ _ _ E E') as Hle.
  assert (Hm : bytes_of (parse_message r) = (bytes_of (message_head r) ++ m_last r)%list).
  { unfold parse_message, message_head, m_last. rewrite !bytes_of_app, <- !app_assoc. reflexivity. }
  rewrite Hm, app_length, bytes_of_length in Hle. lia.
Qed.

(** So the claim for every report is false: a report listing the thirty-odd node names. *)
Definition long_report : parse_report := ParseReport "3" "1" "4"
  ["sin"; "squ"; "tri"; "saw"; "noiz"; "mul"; "add"; "imp"; "constsig"; "seq"; "sp"; "speed"; "choose"; "lpf"; "rhpf";
   "onepole"; "delayn"; "delayms"; "allpass"; "comb"; "apfmsgain"; "apfdecay"; "envperc"; "adsr"; "bd"; "hh"; "sn";
   "sawsynth"; "squsynth"; "trisynth"; "plate"; "reverb"; "pan"; "balance"; "meta"; "psampler"; "psynth"; "msgsynth"] [].
Theorem C71_fields_refuted : exists o r (e : engine glicol) code e' st, plain_report r /\
  update glicol o e code = Ok (e', Some ParsingError) /\ wasm_update glicol o r e code = Ok (e', st) /\
  js_fields (js_info st) = None.
Proof.
  assert (H : match update glicol id_orders (engine_new glicol) "o: nosuch 1" with Ok (_, Some ParsingError) => true | _ => false end = true)
    by run_session.
  destruct (update glicol id_orders (engine_new glicol) "o: nosuch 1") as [[e' [[]|]]|] eqn:Hu; try done. clear H.
  assert (Hp : plain_report long_report).
  { split_and!; apply (bool_decide_unpack (Forall _ _)) || apply Forall_nil; vm_compute; exact I. }
  destruct (wasm_update glicol id_orders long_report (engine_new glicol) "o: nosuch 1") as [[e1 st]|] eqn:Hw.
  - assert (e1 = e') as ->. { unfold wasm_update in Hw. rewrite Hu, write_err_spec in Hw. by injection Hw. }
    exists id_orders, long_report, (engine_new glicol), "o: nosuch 1"%string, e', st. split; [exact Hp|]. split; [exact Hu|].
    split; [exact Hw|]. eapply C71_long_report_throws; [exact Hp| |exact Hu|exact Hw]. vm_compute. lia.
  - exfalso. unfold wasm_update in Hw. by rewrite Hu, write_err_spec in Hw.
Qed.

Example C71_case :
  match wasm_update glicol id_orders (ParseReport "3" "1" "4" ["EOI"; "node"] []) (engine_new glicol) "o: nosuch 1" with
  | Ok (_, st) => js_fields (js_info st) = Some (map bytes_of ["3"; "1"; "4"; "EOI, node"; ""]%string)
  | Panic => False
  end.
Proof. run_session. Qed.

(** ** C70: a burst of control messages *)

Lemma ends_with_spec ch s : ends_with ch s = true -> exists t, s = (t ++ String ch "")%string.
Proof.
  induction s as [|d s IH]; [done|]. destruct s as [|d2 s].
  - cbn [ends_with]. intros ->%Ascii.eqb_eq. by exists ""%string.
  - change (ends_with ch (String d (String d2 s))) with (ends_with ch (String d2 s)). intros [t ->]%IH. by exists (String d t).
Qed.
Lemma send_nothing (L : lang) c e : send_msg L c e "" = Ok e.
Proof. reflexivity. Qed.
Lemma append_assoc (a b d : string) : ((a ++ b) ++ d = a ++ b ++ d)%string.
Proof. induction a as [|x a IH]; [done|]. exact (f_equal (String x) IH). Qed.
Lemma append_nil (a : string) : (a ++ "" = a)%string.
Proof. induction a as [|x a IH]; [done|]. exact (f_equal (String x) IH). Qed.
Lemma send_ended (L : lang) c e m rest : send_msg L c e (ended m ++ rest) =
  match send_msg L c e m with Ok e1 => send_msg L c e1 rest | Panic => Panic end.
Proof.
  unfold ended. destruct (ends_with ";" m) eqn:E.
  - apply ends_with_spec in E as [t ->]. rewrite append_assoc.
    pose proof (C12_in_order L c e t rest) as H1. pose proof (C12_in_order L c e t "") as H2.
    change (String ";" "") with ";"%string. rewrite H1. rewrite append_nil in H2. rewrite H2.
    destruct (send_msg L c e t) as [e1|]; [|done]. by rewrite send_nothing.
  - rewrite append_assoc. apply C12_in_order.
Qed.

(** The bytes of any number of messages, each ended as [sendMsg] ends it, delivered to the
    engine in one piece act like the messages sent one after the other. *)
Theorem C70_burst (L : lang) c e (msgs : list string) :
  send_msg L c e (foldr (fun m acc => ended m ++ acc)%string EmptyString msgs) = foldM (send_msg L c) e msgs.
Proof.
  revert e. induction msgs as [|m msgs IH]; intros e; [reflexivity|]. cbn [foldr foldM]. rewrite send_ended.
  destruct (send_msg L c e m) as [e1|]; [|done]. apply IH.
Qed.
Print Assumptions C70_burst.
(** Delivered in two pieces cut after whole messages: the same. *)
Corollary C70_two_blocks (L : lang) c e (m1 m2 : list string) :
  match send_msg L c e (foldr (fun m acc => ended m ++ acc)%string EmptyString m1) with
  | Ok e1 => send_msg L c e1 (foldr (fun m acc => ended m ++ acc)%string EmptyString m2)
  | Panic => Panic
  end = foldM (send_msg L c) e (m1 ++ m2).
Proof. rewrite C70_burst, foldM_app. destruct (foldM (send_msg L c) e m1); [|done]. apply C70_burst. Qed.

Example C70_case : sees [submit "o: sig 1 >> mul 2 >> add 1"; CMsg glicol c64 (ended "o,0,0,5" ++ ended "o,1,0,3;" ++ ended "o,2,0,4"); play_block] =
  [Quiet; Quiet; level 19].
Proof. run_session. Qed.
(** When the queue has no room for a whole message, the part that went in is acted on: the
    parameter is set to another value. *)
Theorem C70_cut_message_refuted : exists cs m t, ended m = (t ++ "40;")%string /\
  sees (cs ++ [CMsg glicol c64 (ended m); play_block]) = [Quiet; Quiet; level 440] /\
  sees (cs ++ [CMsg glicol c64 t; play_block]) = [Quiet; Quiet; level 4].
Proof. exists [submit "o: sig 1"], "o,0,0,440"%string, "o,0,0,4"%string. split; [done|]. split; run_session. Qed.
