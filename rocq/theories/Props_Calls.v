(** * Properties of the calls that act on a running program: C12, C14, C61. *)
From Verif Require Import StateProofs Session SyntaxProofs Stream Props_Range Props_Refuted.
From Coq Require Import Lia.
Local Open Scope nat_scope.
Local Open Scope string_scope.

(** ** C12: send_msg *)

(** A part of a command: nothing that separates commands or parts, and no white space. *)
Definition part_char (ch : ascii) : bool := negb (Ascii.eqb ch "," || Ascii.eqb ch ";" || is_space ch)%bool.
Definition part (s : string) : Prop := sall part_char s = true.
(** What a command says: the component at position [i] of chain [nm] is to receive [m].
    Positions are decimal numbers, parameter numbers go up to 255, values are numerals or
    begin with a backslash. *)
Inductive command (c : cfg) : string -> string -> nat -> msg -> Prop :=
| co_number nm ps i pa n w v : part nm -> natural c ps (Z.of_nat i) -> natural (Cfg false 255) pa n -> number w v ->
    command c (nm ++ "," ++ ps ++ "," ++ pa ++ "," ++ w) nm i (SetToNumber n v)
| co_symbol nm ps i pa n w : part nm -> natural c ps (Z.of_nat i) -> natural (Cfg false 255) pa n -> part w ->
    command c (nm ++ "," ++ ps ++ "," ++ pa ++ "," ++ String "\" w) nm i (SetToSymbol n (String "\" w)).

Lemma split_on_app c a b : split_on c (a ++ String c b) = (split_on c a ++ split_on c b)%list.
Proof.
  induction a as [|x a IH].
  - change ("" ++ String c b) with (String c b). cbn [split_on]. by rewrite Ascii.eqb_refl.
  - rewrite sapp_cons. cbn [split_on]. rewrite IH. destruct (Ascii.eqb c x) eqn:E; [done|].
    destruct (split_on c a) eqn:E2; [|done]. exfalso. revert E2. clear. destruct a as [|y a]; [done|]. cbn.
    destruct (Ascii.eqb c y); [done|]. by destruct (split_on c a).
Qed.
Lemma split_on_last c a : sall (fun ch => negb (Ascii.eqb c ch)) a = true -> split_on c a = [a].
Proof.
  induction a as [|x a IH]; intros H; [done|]. cbn [sall split_on] in H |- *. apply andb_prop in H as [H1 H2].
  destruct (Ascii.eqb c x); [done|]. by rewrite (IH H2).
Qed.
Lemma sall_impl (f g : ascii -> bool) s : (forall ch, f ch = true -> g ch = true) -> sall f s = true -> sall g s = true.
Proof.
  intros H. induction s as [|x s IH]; [done|]. cbn [sall]. intros [H1 H2]%andb_prop. rewrite (H x H1). by apply IH.
Qed.
Lemma sfilter_all f s : sall f s = true -> sfilter f s = s.
Proof. induction s as [|x s IH]; [done|]. cbn [sall sfilter]. intros [H1 H2]%andb_prop. by rewrite H1, IH. Qed.
Lemma sfilter_app f a b : sfilter f (a ++ b) = sfilter f a ++ sfilter f b.
Proof. induction a as [|x a IH]; [done|]. rewrite sapp_cons. cbn [sfilter]. rewrite IH. by destruct (f x). Qed.
Lemma part_no (d : ascii) s : part_char d = false -> part s -> sall (fun ch => negb (Ascii.eqb d ch)) s = true.
Proof.
  intros Hd. apply sall_impl. intros ch Hch. destruct (Ascii.eqb_spec d ch) as [->|]; [by rewrite Hd in Hch|done].
Qed.
Lemma part_no_space s : part s -> sfilter (fun ch => negb (is_space ch)) s = s.
Proof.
  intros H. apply sfilter_all. revert H. apply sall_impl. intros ch. unfold part_char. rewrite !negb_orb.
  by intros [_ ?]%andb_prop.
Qed.
Lemma part_digits s : digits s -> part s.
Proof.
  apply sall_impl. intros [[] [] [] [] [] [] [] []]; vm_compute; try done.
Qed.
Lemma part_app a b : part a -> part b -> part (a ++ b).
Proof. unfold part. intros Ha Hb. by rewrite sall_app, Ha, Hb. Qed.
Lemma part_sign s : is_sign s -> part s.
Proof. unfold is_sign. rewrite !elem_of_cons, elem_of_nil. by intros [-> | [-> | [-> | []]]]. Qed.
Lemma part_literal l : l_ok l -> part (l_text l).
Proof.
  destruct l as [sg d tl]. unfold l_ok, l_text. cbn [l_sign l_int l_tail]. intros (Hs & Hd & _ & Ht).
  apply part_app; [by apply part_sign|]. apply part_app; [by apply part_digits|].
  destruct tl as [[fp [[[x es] ed]|]]|]; [| |done].
  - destruct Ht as (H1 & H2 & H3 & H4 & _). apply (part_app "."); [done|]. apply part_app; [by apply part_digits|].
    change (String x (es ++ ed)) with (String x "" ++ (es ++ ed)). apply part_app; [by destruct H2 as [-> | ->]|].
    apply part_app; [by apply part_sign|by apply part_digits].
  - apply (part_app "."); [done|by apply part_digits].
Qed.
Lemma part_natural c w n : natural c w n -> part w.
Proof. intros (l & H1 & _ & -> & _)%natural_literal. by apply part_literal. Qed.
Lemma parse_u8_natural w n : natural (Cfg false 255) w n -> parse_u8 w = Some n.
Proof. intros (l & _ & _ & _ & H)%natural_literal. exact H. Qed.
Lemma parse_backslash w : parse_f32 (String "\" w) = None.
Proof.
  unfold parse_f32. cbn [split_sign]. cbn [smap]. reflexivity.
Qed.

Section send_msg.
  Context (L : lang).
  Notation engine := (engine L).

  Lemma command_read c e s nm i m : command c s nm i m ->
    sfilter (fun ch => negb (is_space ch)) s = s /\ split_on ";" s = [s] /\ s <> "" /\
    send_command L c e s =
      match en_info L e !! nm with
      | None => Ok e
      | Some ids => match ids !! i with
                    | None => Panic
                    | Some n => match send_to L (en_graph L e) n m with Ok g => Ok (set_graph L e g) | Panic => Panic end
                    end
      end.
  Proof.
    assert (Hgen : forall nm ps i pa w n (m : msg), part nm -> natural c ps (Z.of_nat i) -> natural (Cfg false 255) pa n -> part w ->
      match parse_f32 w with Some v => SetToNumber n v | None => SetToSymbol n w end = m ->
      let s := nm ++ "," ++ ps ++ "," ++ pa ++ "," ++ w in
      sfilter (fun ch => negb (is_space ch)) s = s /\ split_on ";" s = [s] /\ s <> "" /\
      send_command L c e s =
        match en_info L e !! nm with
        | None => Ok e
        | Some ids => match ids !! i with
                      | None => Panic
                      | Some n => match send_to L (en_graph L e) n m with Ok g => Ok (set_graph L e g) | Panic => Panic end
                      end
        end).
    { clear. intros nm ps i pa w n m H1 H2 H3 H4 H5 s.
      pose proof (part_natural _ _ _ H2) as H2'. pose proof (part_natural _ _ _ H3) as H3'.
      split_and!.
      - unfold s. rewrite !sfilter_app, (part_no_space nm), (part_no_space ps), (part_no_space pa), (part_no_space w) by done. done.
      - apply split_on_last. unfold s. rewrite !sall_app.
        by rewrite (part_no ";" nm), (part_no ";" ps), (part_no ";" pa), (part_no ";" w).
      - unfold s. by destruct nm.
      - unfold send_command, s. change ("," ++ ps ++ "," ++ pa ++ "," ++ w) with (String "," (ps ++ String "," (pa ++ String "," w))).
        rewrite !split_on_app, !split_on_last by (by apply part_no). cbn [app].
        destruct (natural_literal _ _ _ H2) as (_ & _ & _ & _ & ->). rewrite (parse_u8_natural _ _ H3). unfold default, id.
        rewrite Nat2Z.id. by rewrite H5. }
    intros [nm' ps i' pa n w v H1 H2 H3 (l & Hl & -> & ->)|nm' ps i' pa n w H1 H2 H3 H4].
    - apply (Hgen nm' ps i' pa (l_text l) n); try done; [by apply part_literal|]. by rewrite parse_literal.
    - apply (Hgen nm' ps i' pa (String "\" w) n); try done.
  Qed.

  Lemma send_one c e s nm i m : command c s nm i m -> send_msg L c e s = send_command L c e s.
  Proof.
    intros H. destruct (command_read c e s nm i m H) as (H1 & H2 & H3 & _). unfold send_msg. rewrite H1, H2.
    rewrite filter_cons_True by done. cbn. by destruct (send_command L c e s).
  Qed.

  (** The call succeeds exactly when the addressed node exists and takes the message, and
      then it changes the state of that node and nothing else: no other node, no buffer, no
      connection, no setting. *)
  Theorem C12_one_command_partial c (e : engine) s nm i m ids n w st : command c s nm i m ->
    en_info L e !! nm = Some ids -> ids !! i = Some n -> node_weight (en_graph L e) n = Some w -> nmsg w.1 m = Ok st ->
    exists g, send_msg L c e s = Ok (set_graph L e g) /\ node_weight g n = Some (st, w.2) /\
      (forall k, k <> n -> node_weight g k = node_weight (en_graph L e) k) /\
      edges g = edges (en_graph L e) /\ free g = free (en_graph L e).
  Proof.
    intros Hc Hi Hn Hw Hm. rewrite (send_one _ _ _ _ _ _ Hc). destruct (command_read c e s nm i m Hc) as (_ & _ & _ & ->).
    rewrite Hi, Hn. unfold send_to. rewrite Hw, Hm.
    destruct (set_weight (en_graph L e) n (st, w.2)) as [g|] eqn:E.
    2:{ unfold set_weight in E. by rewrite Hw in E. }
    apply set_weight_spec in E as (_ & Hf & He & _ & Hs). exists g. split_and!; try done.
    - rewrite Hs. by rewrite decide_True.
    - intros k Hk. rewrite Hs. by rewrite decide_False.
  Qed.

  (** Commands for unknown chains are ignored. *)
  Theorem C12_unknown_chain c (e : engine) s nm i m : command c s nm i m -> en_info L e !! nm = None ->
    send_msg L c e s = Ok e.
  Proof.
    intros Hc Hi. rewrite (send_one _ _ _ _ _ _ Hc). destruct (command_read c e s nm i m Hc) as (_ & _ & _ & ->). by rewrite Hi.
  Qed.

  (** Several commands act in order; white space does not matter. *)
  Theorem C12_in_order c (e : engine) a b :
    send_msg L c e (a ++ ";" ++ b) = match send_msg L c e a with Ok e1 => send_msg L c e1 b | Panic => Panic end.
  Proof.
    unfold send_msg. rewrite !sfilter_app. change (sfilter (fun ch => negb (is_space ch)) ";") with ";".
    change (";" ++ ?x) with (String ";" x). rewrite split_on_app, filter_app. apply foldM_app.
  Qed.
  Theorem C12_white_space c (e : engine) a b :
    sfilter (fun ch => negb (is_space ch)) a = sfilter (fun ch => negb (is_space ch)) b ->
    send_msg L c e a = send_msg L c e b.
  Proof. intros H. unfold send_msg. by rewrite H. Qed.

  (** Whatever the string: only states of nodes change. *)
  Theorem C12_any_string c (e e' : engine) s : send_msg L c e s = Ok e' ->
    exists g, e' = set_graph L e g /\ edges g = edges (en_graph L e) /\ free g = free (en_graph L e) /\
      forall k, snd <$> node_weight g k = snd <$> node_weight (en_graph L e) k.
  Proof.
    unfold send_msg. apply (foldM_inv (fun e' => exists g, e' = set_graph L e g /\ edges g = edges (en_graph L e) /\
      free g = free (en_graph L e) /\ forall k, snd <$> node_weight g k = snd <$> node_weight (en_graph L e) k)).
    { exists (en_graph L e). by destruct e. }
    intros x y z (g & -> & H1 & H2 & H3) _. unfold send_command.
    destruct (split_on "," y) as [|a [|b [|d [|v r]]]]; try (intros [= <-]; by exists g).
    destruct (_ !! a) as [ids|]; [|intros [= <-]; by exists g]. destruct (ids !! _) as [id|]; [|done].
    destruct (send_to _ _ _ _) as [g'|] eqn:E; [|done]. intros [= <-]. exists g'. split; [done|].
    apply send_to_spec in E as (w & st & Hw & _ & E). apply set_weight_spec in E as (_ & Hf & He & _ & Hs). simpl in *.
    split_and!; [congruence|congruence|]. intros k. rewrite Hs, <- H3. case_decide as Hd; [|done]. subst. by rewrite Hw.
  Qed.
End send_msg.

Example C12_case : command c64 "o,1,0,2.5" "o" 1 (SetToNumber 0 (l_value (Literal "" "2" (Some ("5", None))))) /\
  command c64 "~amp,0,1,\kick" "~amp" 0 (SetToSymbol 1 "\kick").
Proof.
  split.
  - apply (co_number c64 "o" "1" 1 "0" 0 "2.5"); [done| | |].
    + exists "", "1". split_and!; try done. set_solver.
    + exists "", "0". split_and!; try done. set_solver.
    + exists (Literal "" "2" (Some ("5", None))). split_and!; try done. cbn. split_and!; try done. unfold is_sign. set_solver.
  - apply (co_symbol c64 "~amp" "0" 0 "1" 1 "kick"); [done| | |done].
    + exists "", "0". split_and!; try done. set_solver.
    + exists "", "1". split_and!; try done. set_solver.
Qed.

(** ** C61: numbers set by send_msg *)

(** [k a] is a component with a numeric argument [a].  Parameter [j] of its node is
    [tunable] (for the values [ok]) if the node is an argument value together with a memory:
    (these components refer to no chain, so at most one input is connected to them)
    creating it gives the value of the component and a memory that does not depend on it,
    the message exchanges the value and keeps the memory, and playing and wiring keep the
    value. *)
Definition tunable (P : platform) (ev : env sampledata) (ok : f32 -> Prop) (j : Z) (k : f32 -> component) : Prop :=
  exists (M : Type) (mk : f32 -> M -> gnode P) (m0 : M) out,
    (forall a, exists refs, makenode_ P ev (k a) = Done ((mk a m0, out), refs)) /\
    (forall a m v, ok v -> gmsg P (mk a m) (SetToNumber j v) = Ok (mk v m)) /\
    (forall a m i o n' o', length i <= 1 -> gproc P (mk a m) i o = Ok (n', o') -> exists m', n' = mk a m') /\
    (forall m x, conn_msg x -> exists m', forall a, gmsg P (mk a m) x = Ok (mk a m')).

(** A history of a node: blocks played and numbers set. *)
Inductive event := Block (i : inmap) | Set_ (v : f32).
Fixpoint live_ (P : platform) (j : Z) (n : gnode P) (out : list sig) (h : list event) : res (gnode P * list sig) :=
  match h with
  | [] => Ok (n, out)
  | Block i :: h' => match gproc P n i out with Ok (n', out') => live_ P j n' out' h' | Panic => Panic end
  | Set_ v :: h' => match gmsg P n (SetToNumber j v) with Ok n' => live_ P j n' out h' | Panic => Panic end
  end.
Fixpoint last_set (a : f32) (h : list event) : f32 :=
  match h with [] => a | Block _ :: h' => last_set a h' | Set_ v :: h' => last_set v h' end.
Definition sets_ok (ok : f32 -> Prop) (h : list event) : Prop :=
  Forall (fun x => match x with Set_ v => ok v | Block i => length i <= 1 end) h.

Section tuned.
  Context (P : platform) (ev : env sampledata) (ok : f32 -> Prop) (j : Z) (k : f32 -> component).
  Hypothesis Ht : tunable P ev ok j k.

  Lemma tuned_created M (mk : f32 -> M -> gnode P) m0 out :
    (forall a, exists refs, makenode_ P ev (k a) = Done ((mk a m0, out), refs)) ->
    (forall m x, conn_msg x -> exists m', forall a, gmsg P (mk a m) x = Ok (mk a m')) ->
    forall ms, Forall conn_msg ms -> exists m, forall a, created P ev (k a) ms (mk a m) out.
  Proof.
    intros Hn Hc ms Hms.
    assert (exists m, forall a, foldM (gmsg P) (mk a m0) ms = Ok (mk a m)) as [m Hm].
    { generalize m0 as q. induction Hms as [|x ms Hx _ IH]; intros q; [by exists q|].
      destruct (Hc q x Hx) as [q' Hq']. destruct (IH q') as [m Hm]. exists m. intros a. cbn [foldM]. by rewrite Hq'. }
    exists m. intros a. destruct (Hn a) as [refs Hr]. by exists (mk a m0), refs.
  Qed.

  (** Setting the number on a new node gives the node created with that number. *)
  Theorem tuned_fresh ms a v n out : Forall conn_msg ms -> ok v -> created P ev (k a) ms n out ->
    exists n', gmsg P n (SetToNumber j v) = Ok n' /\ created P ev (k v) ms n' out.
  Proof.
    destruct Ht as (M & mk & m0 & o & H1 & H2 & H3 & H4). intros Hms Hv (n0 & refs & Hn & Hf).
    destruct (tuned_created _ _ _ _ H1 H4 ms Hms) as [m Hm]. destruct (Hm a) as (n0' & refs' & Hn' & Hf').
    rewrite Hn in Hn'. injection Hn' as <- <- _. rewrite Hf in Hf'. injection Hf' as ->.
    exists (mk v m). split; [by apply H2|]. apply Hm.
  Qed.

  (** At any later time, setting the number again has the effect of the last setting only,
      and setting the number in force (the last one set, or else the one of the component)
      has no effect. *)
  Theorem tuned_any ms a h n out n1 out1 : Forall conn_msg ms -> sets_ok ok h -> created P ev (k a) ms n out ->
    live_ P j n out h = Ok (n1, out1) ->
    (ok (last_set a h) -> gmsg P n1 (SetToNumber j (last_set a h)) = Ok n1) /\
    (forall u v, ok u -> ok v -> exists nu nv, gmsg P n1 (SetToNumber j u) = Ok nu /\ gmsg P n1 (SetToNumber j v) = Ok nv /\
                                               gmsg P nu (SetToNumber j v) = Ok nv).
  Proof.
    destruct Ht as (M & mk & m0 & o & H1 & H2 & H3 & H4). intros Hms Hh (n0 & refs & Hn & Hf) Hl.
    destruct (tuned_created _ _ _ _ H1 H4 ms Hms) as [m Hm]. destruct (Hm a) as (n0' & refs' & Hn' & Hf').
    rewrite Hn in Hn'. injection Hn' as <- <- _. rewrite Hf in Hf'. injection Hf' as ->. clear Hm Hf Hn Hms.
    assert (exists m1, n1 = mk (last_set a h) m1) as [m1 ->].
    { clear H1. revert a m out Hl Hh. induction h as [|[i|w] h IH]; intros a m out; cbn [live_ last_set].
      - intros [= <- _] _. by exists m.
      - destruct (gproc P (mk a m) i out) as [[n' o']|] eqn:E; [|done]. intros Hl Hh.
        inversion Hh as [|? ? Hi Hh']; subst. destruct (H3 _ _ _ _ _ _ Hi E) as [m' ->]. by apply (IH a m' o' Hl).
      - intros Hl Hh. inversion Hh as [|? ? Hw Hh']; subst. rewrite (H2 a m w Hw) in Hl. by apply (IH w m out Hl). }
    split; [by apply H2|]. intros u v Hu Hv. exists (mk u m1), (mk v m1). split_and!; by apply H2.
  Qed.
End tuned.

(** The nodes whose numbers are tunable. *)
Definition any (_ : f32) : Prop := True.
Definition within1 (v : f32) : Prop := fltb v fm1 = false /\ fgtb v f1 = false.
Inductive tunes : (f32 -> Prop) -> Z -> (f32 -> component) -> Prop :=
| tu_mul : tunes any 0 (fun a => CMul (Num a))
| tu_add : tunes any 0 (fun a => CAdd (Num a))
| tu_sin : tunes any 0 (fun a => CSin (Num a))
| tu_saw : tunes any 0 (fun a => CSaw (Num a))
| tu_squ : tunes any 0 (fun a => CSqu (Num a))
| tu_tri : tunes any 0 (fun a => CTri (Num a))
| tu_sig : tunes any 0 CConstSig
| tu_speed : tunes any 0 CSpeed
| tu_imp : tunes any 0 (fun a => CImp (Num a))
| tu_pan : tunes within1 0 (fun a => CPan (Num a))
| tu_onepole : tunes any 0 (fun a => COnepole (Num a))
| tu_lpf q : tunes any 0 (fun a => CLpf (SigNum a) q)
| tu_lpf_q c : tunes any 1 (fun a => CLpf (SigNum c) a)
| tu_hpf q : tunes any 0 (fun a => CRhpf (Num a) q)
| tu_hpf_q c : tunes any 1 (fun a => CRhpf (Num c) a)
| tu_perc_a d : tunes any 0 (fun a => CEnvPerc a d)
| tu_perc_d a : tunes any 1 (fun d => CEnvPerc a d)
| tu_adsr_a d s r : tunes any 0 (fun a => CAdsr a d s r)
| tu_adsr_d a s r : tunes any 1 (fun d => CAdsr a d s r)
| tu_adsr_s a d r : tunes any 2 (fun s => CAdsr a d s r)
| tu_adsr_r a d s : tunes any 3 (fun r => CAdsr a d s r).

Lemma scan_form {S A B M} (f : S -> A -> S * B) (mk : M -> S) :
  (forall m x, exists m', (f (mk m) x).1 = mk m') -> forall xs m, exists m', (scan f (mk m) xs).1 = mk m'.
Proof.
  intros Hf xs. induction xs as [|x xs IH]; intros m; [by exists m|]. rewrite scan_cons. cbn [fst].
  destruct (Hf m x) as [m' ->]. apply IH.
Qed.
Lemma scanR_form {S A B M} (f : S -> A -> res (S * B)) (mk : M -> S) :
  (forall m x s' y, f (mk m) x = Ok (s', y) -> exists m', s' = mk m') ->
  forall xs m s' ys, scanR f (mk m) xs = Ok (s', ys) -> exists m', s' = mk m'.
Proof.
  intros Hf xs. induction xs as [|x xs IH]; intros m s' ys; cbn [scanR]; [intros [= <- _]; by exists m|].
  destruct (f (mk m) x) as [[s1 y]|] eqn:E; [|done]. destruct (Hf _ _ _ _ E) as [m' ->].
  destruct (scanR f (mk m') xs) as [[s2 l]|] eqn:E2; [|done]. intros [= <- _]. by eapply IH.
Qed.
Lemma tunable_simple (P : platform) ev (ok : f32 -> Prop) j k {S M} (c : S -> snode P)
    (pr : S -> inmap -> list sig -> res (S * list sig)) (mg : S -> msg -> res S)
    (mk : f32 -> M * list nat -> S) (m0 : M * list nat) ch rf :
  (forall s i o, sproc P (c s) i o = wrap c (pr s i o)) ->
  (forall s m, smsg P (c s) m = wrapm c (mg s m)) ->
  (forall a, makenode_ P ev (k a) = boxed P (c (mk a m0)) ch rf) ->
  (forall a m v, ok v -> mg (mk a m) (SetToNumber j v) = Ok (mk v m)) ->
  (forall a m i o s' o', length i <= 1 -> pr (mk a m) i o = Ok (s', o') -> exists m', s' = mk a m') ->
  (forall m x, conn_msg x -> exists m', forall a, mg (mk a m) x = Ok (mk a m')) ->
  tunable P ev ok j k.
Proof.
  intros Hp Hm H1 H2 H3 H4. exists (M * list nat)%type, (fun a m => Simple (c (mk a m))), m0, (chans_of P ch). split_and!.
  - intros a. exists rf. by rewrite H1.
  - intros a m v Hv. cbn [gmsg]. by rewrite Hm, H2.
  - intros a m i o n' o' Hi. cbn [gproc]. rewrite Hp. destruct (pr (mk a m) i o) as [[s' o1]|] eqn:E; [|done].
    intros [= <- _]. destruct (H3 _ _ _ _ _ _ Hi E) as [m' ->]. by exists m'.
  - intros m x Hx. destruct (H4 m x Hx) as [m' Hm']. exists m'. intros a. cbn [gmsg]. by rewrite Hm, Hm'.
Qed.
Ltac split_mem mem := repeat match type of mem with prod _ _ => destruct mem as [mem ?] end.
Ltac law4 := intros [mem o] x Hx; destruct x as [| | |i|p i|]; try done;
  [exists (mem, (o ++ [i])%list)|unfold conn_msg in Hx; subst p; exists (mem, i :: o)
  |first [exists (mem, []); (intros; split_mem mem; reflexivity)|exists (mem, o)]];
  intros; split_mem mem; reflexivity.
Lemma Ok_fst {A B} (p : A * B) s y : Ok p = Ok (s, y) -> p.1 = s.
Proof. intros H. assert (p = (s, y)) as -> by congruence. done. Qed.

Section tunable.
  Context (P : platform) (ev : env sampledata).

  Definition mk_op (a : f32) (m : unit * list nat) : opn := Opn a m.2.
  Lemma op_keeps op a m i o s' o' : op_proc op (mk_op a m) i o = Ok (s', o') -> exists m', s' = mk_op a m'.
  Proof.
    unfold op_proc. destruct (apply_op _ _ _ _) as [x|]; [|done]. intros [= <- _]. by exists m.
  Qed.
  Definition mk_osc (a : f32) (m : (f32 * f32) * list nat) : osc := Osc a m.1.1 (e_sr ev) m.1.2 m.2.
  Lemma osc_keeps w a m i o s' o' : osc_proc P w (mk_osc a m) i o = Ok (s', o') -> exists m', s' = mk_osc a m'.
  Proof.
    assert (G : forall {A} (f : osc -> A -> osc * f32) xs, (forall m x, exists m', (f (mk_osc a m) x).1 = mk_osc a m') ->
      forall s' o', (let '(q, b) := scan f (mk_osc a m) xs in out' ← osc_put w o b; mret (q, out')) = Ok (s', o') ->
      exists m', s' = mk_osc a m').
    { intros A f xs Hf s1 o1. pose proof (scan_form f (mk_osc a) Hf xs m) as [m' Hm'].
      destruct (scan f (mk_osc a m) xs) as [q b]. cbn [fst] in Hm'. subst q.
      destruct (osc_put w o b) as [out'|]; [|done]. intros [= <- _]. by exists m'. }
    assert (Gs : forall m f, exists m', (osc_step P w (mk_osc a m) f).1 = mk_osc a m').
    { intros [[ph ic] od] f. by eexists ((_, ic), od). }
    unfold osc_proc. destruct i as [|p [|p' i]].
    - apply G. intros m1 _. apply Gs.
    - destruct (match os_ord _ with [] => _ | _ => _ end) as [mb|]; [|done].
      unfold mbind at 1, res_bind. destruct (chan mb 0) as [b0|]; [|done]. apply G.
      intros [[ph ic] od] x. unfold osc_mod_step. destruct w; [apply Gs|..]; cbn [mk_osc os_freq os_phase os_sr os_inc os_ord fst snd];
        apply (Gs ((ph, if feqb x f0 then ic else x), od)).
    - intros [= <- _]. by exists m.
  Qed.

  Definition mk_sig (a : f32) (m : unit * list nat) : csig := CSig a m.2.
  Definition mk_spd (a : f32) (m : unit * list nat) : spd := Spd a m.2.
  Definition mk_imp (a : f32) (m : Z * list nat) : imp := Imp m.1 (imp_period P (e_sr ev) a) (e_sr ev) m.2.
  Definition mk_pan (a : f32) (m : unit * list nat) : pan := Pan a m.2.
  Definition mk_pole (a : f32) (m : f32 * list nat) : onepole := OnePole (fsub f1 (pole_b P a)) (pole_b P a) m.1 m.2.
  (** Filters: samples remembered, counter. *)
  Notation bqmem := ((f32 * f32 * f32 * f32 * Z)%type).
  Definition mk_bq (sr : Z) (c q : f32) (m : bqmem * list nat) : biquad :=
    let '((x1, x2, y1, y2, st), o) := m in Biquad c q x1 x2 y1 y2 sr [] f1 (f_of_Z 120) st o.
  Definition mk_perc (at_ dc : f32) (m : (Z * f32) * list nat) : envperc := EnvPerc at_ dc m.1.1 m.1.2 (e_sr ev) m.2.
  Definition mk_adsr (a d s r : f32) (m : (Z * f32 * f32 * f32 * Z) * list nat) : adsr :=
    let '((p, x, y, c, ph), o) := m in Adsr a d s r p x y c (e_sr ev) ph o.

  Lemma bq_step_keeps k sr c q m x : exists m', (bq_step_with k c (mk_bq sr c q m) x).1 = mk_bq sr c q m'.
  Proof. destruct m as [[[[[x1 x2] y1] y2] st] o]. by eexists ((_, _, _, _, _), o). Qed.
  Lemma bq_cutoff_mk sr c q m : bq_cutoff (mk_bq sr c q m) = c.
  Proof. by destruct m as [[[[[x1 x2] y1] y2] st] o]. Qed.
  Lemma rlpf_keeps sr c q m i o s' o' : length i <= 1 -> rlpf_proc P (mk_bq sr c q m) i o = Ok (s', o') ->
    exists m', s' = mk_bq sr c q m'.
  Proof.
    destruct i as [|p [|p' i]]; cbn [length]; intros Hi; [intros [= <- _]; by exists m| |lia].
    unfold rlpf_proc. destruct (chan p.2 0) as [b|]; [|done]. unfold mbind at 1, res_bind.
    destruct (scanR (lpf_step P) (mk_bq sr c q m) b) as [[q1 b1]|] eqn:E; [|done].
    apply (scanR_form _ (mk_bq sr c q)) in E.
    - destruct E as [m' ->]. destruct (put0 o b1); [|done]. intros [= <- _]. by exists m'.
    - clear. intros m x s' y. unfold lpf_step.
      assert (bq_cut P (mk_bq sr c q m) = Ok c) as -> by (by destruct m as [[[[[x1 x2] y1] y2] st] o]).
      intros <-%Ok_fst. apply (bq_step_keeps _ sr c q m x).
  Qed.
  Lemma rhpf_keeps sr c q m i o s' o' : length i <= 1 -> rhpf_proc P (mk_bq sr c q m) i o = Ok (s', o') ->
    exists m', s' = mk_bq sr c q m'.
  Proof.
    destruct i as [|p [|p' i]]; cbn [length]; intros Hi; [intros [= <- _]; by exists m| |lia].
    unfold rhpf_proc. destruct (chan p.2 0) as [b|]; [|done]. unfold mbind at 1, res_bind.
    match goal with |- context [scan ?f _ _] => pose proof (scan_form f (mk_bq sr c q)) as G end.
    specialize (G (fun m1 x => ltac:(cbv beta; rewrite (bq_cutoff_mk sr c q m1); exact (bq_step_keeps _ sr c q m1 x))) b m).
    destruct G as [m' Hm']. destruct (scan _ _ b) as [q1 b1]. cbn [fst] in Hm'. subst q1.
    destruct (put0 o b1); [|done]. intros [= <- _]. by exists m'.
  Qed.
  Lemma imp_keeps a m i o s' o' : imp_proc P (mk_imp a m) i o = Ok (s', o') -> exists m', s' = mk_imp a m'.
  Proof.
    unfold imp_proc. destruct (scanR _ _ _) as [[q b]|] eqn:E; [|done]. apply (scanR_form _ (mk_imp a)) in E.
    - destruct E as [m' ->]. destruct (put0 o b); [|done]. intros [= <- _]. by exists m'.
    - clear. intros [cl od] _ s' y. unfold imp_step. destruct (umod _ _) as [r|]; [|done]. intros [= <- _].
      by exists ((cl + 1)%Z, od).
  Qed.
  Lemma pole_keeps a m i o s' o' : length i <= 1 -> onepole_proc P (mk_pole a m) i o = Ok (s', o') ->
    exists m', s' = mk_pole a m'.
  Proof.
    destruct i as [|p [|p' i]]; cbn [length]; intros Hi; [intros [= <- _]; by exists m| |lia].
    unfold onepole_proc. destruct (chan p.2 0) as [b|]; [|done]. unfold mbind at 1, res_bind.
    assert (Hs : forall m x, exists m', (pole_step (mk_pole a m) x).1 = mk_pole a m').
    { intros [y od] x. by eexists (_, od). }
    destruct (scan_form pole_step (mk_pole a) Hs b m) as [m' Hm'].
    destruct (scan _ _ b) as [q1 b1]. cbn [fst] in Hm'. subst q1.
    destruct (put0 o b1); [|done]. intros [= <- _]. by exists m'.
  Qed.
  Lemma perc_keeps a d m i o s' o' : length i <= 1 -> envperc_proc P (mk_perc a d m) i o = Ok (s', o') ->
    exists m', s' = mk_perc a d m'.
  Proof.
    destruct i as [|p [|p' i]]; cbn [length]; intros Hi; [intros [= <- _]; by exists m| |lia].
    unfold envperc_proc. destruct (uadd _ _ _) as [du|]; [|done]. unfold mbind at 1, res_bind.
    destruct (in_ord _ _ _) as [bs|]; [|done]. unfold mbind at 1, res_bind.
    destruct (chan bs 0) as [b|]; [|done]. unfold mbind at 1, res_bind.
    match goal with |- context [scan ?f _ _] => pose proof (scan_form f (mk_perc a d)) as G end.
    specialize (G (fun m1 x => ltac:(destruct m1 as [[p1 s1] o1]; by eexists ((_, _), o1))) b m).
    destruct G as [m' Hm']. destruct (scan _ _ b) as [q1 b1]. cbn [fst] in Hm'. subst q1.
    destruct (put0 o b1); [|done]. intros [= <- _]. by exists m'.
  Qed.
  Lemma adsr_keeps a d s r m i o s' o' : length i <= 1 -> adsr_proc P (mk_adsr a d s r m) i o = Ok (s', o') ->
    exists m', s' = mk_adsr a d s r m'.
  Proof.
    destruct i as [|p [|p' i]]; cbn [length]; intros Hi; [intros [= <- _]; by exists m| |lia].
    unfold adsr_proc. destruct (in_ord _ _ _) as [bs|]; [|done]. unfold mbind at 1, res_bind.
    destruct (chan bs 0) as [b|]; [|done]. unfold mbind at 1, res_bind.
    destruct (scanR _ _ b) as [[q b1]|] eqn:E; [|done]. apply (scanR_form _ (mk_adsr a d s r)) in E.
    - destruct E as [m' ->]. destruct (put0 o b1); [|done]. intros [= <- _]. by exists m'.
    - clear. intros [[[[[p1 x1] y1] c1] ph1] od] x s' y. unfold adsr_step. destruct (adsr_shape _ _ _ _ _ _ _ _) as [v|]; [|done].
      intros [= <- _]. by eexists ((_, _, _, _, _), od).
  Qed.

  Lemma tunes_tunable ok j k : tunes ok j k -> tunable P ev ok j k.
  Proof.
    intros [].
    - apply (tunable_simple P ev any 0 _ NMul (op_proc fmul) op_msg mk_op (tt, []) 2 []); try done; [|law4].
      intros. by eapply op_keeps.
    - apply (tunable_simple P ev any 0 _ NAdd (op_proc fadd) op_msg mk_op (tt, []) 2 []); try done; [|law4].
      intros. by eapply op_keeps.
    - apply (tunable_simple P ev any 0 _ (NOsc WSin) (osc_proc P WSin) osc_msg mk_osc ((f0, f0), []) 1 []); try done; [|law4].
      intros. by eapply osc_keeps.
    - apply (tunable_simple P ev any 0 _ (NOsc WSaw) (osc_proc P WSaw) osc_msg mk_osc ((f0, f0), []) 1 []); try done; [|law4].
      intros. by eapply osc_keeps.
    - apply (tunable_simple P ev any 0 _ (NOsc WSqu) (osc_proc P WSqu) osc_msg mk_osc ((f0, f0), []) 1 []); try done; [|law4].
      intros. by eapply osc_keeps.
    - apply (tunable_simple P ev any 0 _ (NOsc WTri) (osc_proc P WTri) osc_msg mk_osc ((f0, f0), []) 1 []); try done; [|law4].
      intros. by eapply osc_keeps.
    - apply (tunable_simple P ev any 0 _ NConst (csig_proc P) csig_msg mk_sig (tt, []) 1 []); try done; [|law4].
      intros a m i o s' o' _. unfold csig_proc. destruct (put0 _ _); [|done]. intros [= <- _]. by exists m.
    - apply (tunable_simple P ev any 0 _ NSpeed (spd_proc P) spd_msg mk_spd (tt, []) 1 []); try done; [|law4].
      intros a m i o s' o' _. unfold spd_proc. destruct (silent P) as [|z r]; [done|]. destruct (put0 _ _); [|done].
      intros [= <- _]. by exists m.
    - apply (tunable_simple P ev any 0 _ NImp (imp_proc P) (imp_msg P) mk_imp (0%Z, []) 1 []); try done; [|law4].
      intros. by eapply imp_keeps.
    - apply (tunable_simple P ev within1 0 _ NPan pan_proc pan_msg mk_pan (tt, []) 2 []); try done; [| |law4].
      + intros a m v [H1 H2]. change (Ok (Pan (fclamp v fm1 f1) m.2) = Ok (Pan v m.2)). unfold fclamp. by rewrite H1, H2.
      + intros a m [|p [|p' i]] o s' o'; cbn [length]; intros Hi; [| |lia].
        * unfold pan_proc, in_ord. by destruct (pn_ord (mk_pan a m) !! 1).
        * unfold pan_proc. destruct (chan _ _); [|done]. unfold mbind at 1, res_bind. destruct (put01 _ _ _); [|done].
          intros [= <- _]. by exists m.
    - apply (tunable_simple P ev any 0 _ NOnePole (onepole_proc P) (onepole_msg P) mk_pole (f0, []) 1 []); try done; [|law4].
      intros. by eapply pole_keeps.
    - apply (tunable_simple P ev any 0 _ NRlpf (rlpf_proc P) bq_msg (fun c => mk_bq (e_sr ev) c q) ((f0, f0, f0, f0, 0%Z), []) 1 []); try done.
      + by intros a [[[[[x1 x2] y1] y2] st] o] v _.
      + intros. by eapply rlpf_keeps.
      + law4.
    - apply (tunable_simple P ev any 1 _ NRlpf (rlpf_proc P) bq_msg (fun q => mk_bq (e_sr ev) c q) ((f0, f0, f0, f0, 0%Z), []) 1 []); try done.
      + by intros a [[[[[x1 x2] y1] y2] st] o] v _.
      + intros. by eapply rlpf_keeps.
      + law4.
    - apply (tunable_simple P ev any 0 _ NRhpf (rhpf_proc P) bq_msg (fun c => mk_bq 44100 c q) ((f0, f0, f0, f0, 0%Z), []) 1 []); try done.
      + by intros a [[[[[x1 x2] y1] y2] st] o] v _.
      + intros. by eapply rhpf_keeps.
      + law4.
    - apply (tunable_simple P ev any 1 _ NRhpf (rhpf_proc P) bq_msg (fun q => mk_bq 44100 c q) ((f0, f0, f0, f0, 0%Z), []) 1 []); try done.
      + by intros a [[[[[x1 x2] y1] y2] st] o] v _.
      + intros. by eapply rhpf_keeps.
      + law4.
    - apply (tunable_simple P ev any 0 _ NEnvPerc (envperc_proc P) envperc_msg (fun a => mk_perc a d) ((0%Z, f1), []) 2 []); try done; [|law4].
      intros. by eapply perc_keeps.
    - apply (tunable_simple P ev any 1 _ NEnvPerc (envperc_proc P) envperc_msg (fun d => mk_perc a d) ((0%Z, f1), []) 2 []); try done; [|law4].
      intros. by eapply perc_keeps.
    - apply (tunable_simple P ev any 0 _ NAdsr (adsr_proc P) adsr_msg (fun a => mk_adsr a d s r) ((0%Z, f0, f0, f0, 0%Z), []) 2 []); try done; [| |law4].
      + by intros a' [[[[[p x] y] c] ph] o] v _.
      + intros. by eapply adsr_keeps.
    - apply (tunable_simple P ev any 1 _ NAdsr (adsr_proc P) adsr_msg (fun d => mk_adsr a d s r) ((0%Z, f0, f0, f0, 0%Z), []) 2 []); try done; [| |law4].
      + by intros a' [[[[[p x] y] c] ph] o] v _.
      + intros. by eapply adsr_keeps.
    - apply (tunable_simple P ev any 2 _ NAdsr (adsr_proc P) adsr_msg (fun s => mk_adsr a d s r) ((0%Z, f0, f0, f0, 0%Z), []) 2 []); try done; [| |law4].
      + by intros a' [[[[[p x] y] c] ph] o] v _.
      + intros. by eapply adsr_keeps.
    - apply (tunable_simple P ev any 3 _ NAdsr (adsr_proc P) adsr_msg (fun r => mk_adsr a d s r) ((0%Z, f0, f0, f0, 0%Z), []) 2 []); try done; [| |law4].
      + by intros a' [[[[[p x] y] c] ph] o] v _.
      + intros. by eapply adsr_keeps.
  Qed.
End tunable.

(** Setting a number of a new node gives the node created with that number... *)
Theorem C61_fresh_partial P ev ok j k ms a v n out : tunes ok j k -> Forall conn_msg ms -> ok v ->
  created P ev (k a) ms n out ->
  exists n', gmsg P n (SetToNumber j v) = Ok n' /\ created P ev (k v) ms n' out.
Proof. intros Hk. apply tuned_fresh. by apply tunes_tunable. Qed.
(** ... and later it replaces the number in force and nothing else: whatever has been played
    and set before, setting the number in force changes nothing, and a setting that is
    followed by another one is as if it had not been. *)
Theorem C61_any_time_partial P ev ok j k ms a h n out n1 out1 : tunes ok j k -> Forall conn_msg ms -> sets_ok ok h ->
  created P ev (k a) ms n out -> live_ P j n out h = Ok (n1, out1) ->
  (ok (last_set a h) -> gmsg P n1 (SetToNumber j (last_set a h)) = Ok n1) /\
  (forall u v, ok u -> ok v -> exists nu nv, gmsg P n1 (SetToNumber j u) = Ok nu /\ gmsg P n1 (SetToNumber j v) = Ok nv /\
                                             gmsg P nu (SetToNumber j v) = Ok nv).
Proof. intros Hk. apply tuned_any. by apply tunes_tunable. Qed.

(** Nodes without memory, or with a clock only: after any number of blocks the message
    gives exactly the node that was created with the new number and played the same blocks. *)
Inductive steady : (f32 -> Prop) -> (f32 -> component) -> Prop :=
| st_mul : steady any (fun a => CMul (Num a))
| st_add : steady any (fun a => CAdd (Num a))
| st_sig : steady any CConstSig
| st_speed : steady any CSpeed
| st_imp : steady any (fun a => CImp (Num a))
| st_pan : steady within1 (fun a => CPan (Num a)).

Lemma scanR_clock {S A B M} (f : S -> A -> res (S * B)) (mk : M -> S) (nx : M -> M) :
  (forall m x s' y, f (mk m) x = Ok (s', y) -> s' = mk (nx m)) ->
  forall xs m s' ys, scanR f (mk m) xs = Ok (s', ys) -> s' = mk (Nat.iter (length xs) nx m).
Proof.
  intros Hf xs. induction xs as [|x xs IH]; intros m s' ys; cbn [scanR length]; [by intros [= <- _]|].
  destruct (f (mk m) x) as [[s1 y]|] eqn:E; [|done]. apply Hf in E as ->.
  destruct (scanR f (mk (nx m)) xs) as [[s2 l]|] eqn:E2; [|done]. intros [= <- _]. rewrite Nat.iter_succ_r. by eapply IH.
Qed.
Lemma steady_law (P : platform) ev ok k : steady ok k ->
  exists (M : Type) (mk : f32 -> M -> gnode P) (nx : M -> M) (m0 : M) out,
    (forall a, exists refs, makenode_ P ev (k a) = Done ((mk a m0, out), refs)) /\
    (forall a m v, ok v -> gmsg P (mk a m) (SetToNumber 0 v) = Ok (mk v m)) /\
    (forall a m i o n' o', length i <= 1 -> gproc P (mk a m) i o = Ok (n', o') -> n' = mk a (nx m)) /\
    (forall m x, conn_msg x -> exists m', forall a, gmsg P (mk a m) x = Ok (mk a m')).
Proof.
  assert (Hc : forall {M S} (c : S -> snode P) (mg : S -> msg -> res S) (mk : f32 -> M * list nat -> S),
    (forall s m, smsg P (c s) m = wrapm c (mg s m)) ->
    (forall m x, conn_msg x -> exists m', forall a, mg (mk a m) x = Ok (mk a m')) ->
    forall m x, conn_msg x -> exists m', forall a, gmsg P (Simple (c (mk a m))) x = Ok (Simple (c (mk a m')))).
  { intros M S c mg mk H1 H2 m x Hx. destruct (H2 m x Hx) as [m' Hm]. exists m'. intros a. cbn [gmsg]. by rewrite H1, Hm. }
  intros [].
  - exists (unit * list nat)%type, (fun a m => Simple (NMul (mk_op a m))), id, (tt, []), (chans_of P 2). split_and!.
    + intros a. by exists [].
    + done.
    + intros a m i o n' o' _. cbn [gproc sproc]. unfold op_proc. destruct (apply_op _ _ _ _); [|done]. by intros [= <- _].
    + eapply Hc; [done|law4].
  - exists (unit * list nat)%type, (fun a m => Simple (NAdd (mk_op a m))), id, (tt, []), (chans_of P 2). split_and!.
    + intros a. by exists [].
    + done.
    + intros a m i o n' o' _. cbn [gproc sproc]. unfold op_proc. destruct (apply_op _ _ _ _); [|done]. by intros [= <- _].
    + eapply Hc; [done|law4].
  - exists (unit * list nat)%type, (fun a m => Simple (NConst (mk_sig a m))), id, (tt, []), (chans_of P 1). split_and!.
    + intros a. by exists [].
    + done.
    + intros a m i o n' o' _. cbn [gproc sproc]. unfold csig_proc. destruct (put0 _ _); [|done]. by intros [= <- _].
    + eapply Hc; [done|law4].
  - exists (unit * list nat)%type, (fun a m => Simple (NSpeed (mk_spd a m))), id, (tt, []), (chans_of P 1). split_and!.
    + intros a. by exists [].
    + done.
    + intros a m i o n' o' _. cbn [gproc sproc]. unfold spd_proc. destruct (silent P); [done|]. destruct (put0 _ _); [|done].
      by intros [= <- _].
    + eapply Hc; [done|law4].
  - exists (Z * list nat)%type, (fun a m => Simple (NImp (mk_imp P ev a m))),
      (fun m => Nat.iter (p_blk P) (fun m => ((m.1 + 1)%Z, m.2)) m), (0%Z, []), (chans_of P 1). split_and!.
    + intros a. by exists [].
    + done.
    + intros a m i o n' o' _. cbn [gproc sproc]. unfold imp_proc. destruct (scanR _ _ _) as [[q b]|] eqn:E; [|done].
      apply (scanR_clock _ (mk_imp P ev a) (fun m => ((m.1 + 1)%Z, m.2))) in E.
      * rewrite replicate_length in E. subst q. destruct (put0 o b); [|done]. by intros [= <- _].
      * clear. intros [cl od] _ s' y. unfold imp_step. destruct (umod _ _) as [r|]; [|done]. by intros [= <- _].
    + eapply Hc; [done|law4].
  - exists (unit * list nat)%type, (fun a m => Simple (NPan (mk_pan a m))), id, (tt, []), (chans_of P 2). split_and!.
    + intros a. by exists [].
    + intros a m v [H1 H2]. change (Ok (Simple (NPan (Pan (fclamp v fm1 f1) m.2))) = Ok (Simple (P := P) (NPan (Pan v m.2)))).
      unfold fclamp. by rewrite H1, H2.
    + intros a m [|p [|p' i]] o n' o'; cbn [length]; intros Hi; [| |lia]; cbn [gproc sproc].
      * unfold pan_proc, in_ord. by destruct (pn_ord (mk_pan a m) !! 1).
      * unfold pan_proc. destruct (chan _ _); [|done]. unfold mbind at 1, res_bind. destruct (put01 _ _ _); [|done].
        by intros [= <- _].
    + eapply Hc; [done|law4].
Qed.
Theorem C61_as_created_partial P ev ok k ms a v na nv out ins n1 o1 n2 o2 : steady ok k -> Forall conn_msg ms -> ok v ->
  created P ev (k a) ms na out -> created P ev (k v) ms nv out ->
  Forall (fun i => length i <= 1) ins -> play P na out ins = Ok (n1, o1) -> play P nv out ins = Ok (n2, o2) ->
  gmsg P n1 (SetToNumber 0 v) = Ok n2.
Proof.
  intros (M & mk & nx & m0 & o & H1 & H2 & H3 & H4)%(steady_law P ev) Hms Hv Ha Hvc Hi Hp1 Hp2.
  destruct (tuned_created P ev k M mk m0 o H1 H4 ms Hms) as [m Hm].
  assert (G : forall a n, created P ev (k a) ms n out -> n = mk a m).
  { intros b n (n0 & refs & Hn & Hf). destruct (Hm b) as (n0' & refs' & Hn' & Hf'). rewrite Hn in Hn'.
    injection Hn' as <- _ _. rewrite Hf in Hf'. by injection Hf'. }
  apply G in Ha as ->. apply G in Hvc as ->.
  assert (K : forall a ins m out n' os, Forall (fun i => length i <= 1) ins -> play P (mk a m) out ins = Ok (n', os) ->
    n' = mk a (Nat.iter (length ins) nx m)).
  { clear -H3. intros a ins. induction ins as [|i ins IH]; intros m out n' os Hi; cbn [play length]; [by intros [= <- _]|].
    inversion Hi as [|? ? Hi1 Hi2]; subst. destruct (gproc P (mk a m) i out) as [[n1 o1]|] eqn:E; [|done].
    apply (H3 _ _ _ _ _ _ Hi1) in E as ->. destruct (play P _ o1 ins) as [[n2 os2]|] eqn:E2; [|done].
    intros [= <- _]. rewrite Nat.iter_succ_r. by eapply IH. }
  apply (K _ _ _ _ _ _ Hi) in Hp1 as ->. apply (K _ _ _ _ _ _ Hi) in Hp2 as ->. by apply H2.
Qed.

(** An oscillator keeps its phase: the phase advances by the frequency in force, before and
    after the message. *)
Fixpoint phase_at (sr : Z) (freq : nat -> f32) (t : nat) : f32 :=
  match t with
  | O => f0
  | S t' => let p := fadd (phase_at sr freq t') (fdiv (freq t') (f_of_Z sr)) in if fgtb p f1 then fsub p f1 else p
  end.
Lemma osc_scan P w sr v ic o freq n t : (forall u, t <= u < t + n -> freq u = v) ->
  exists b, scan (fun s (_ : unit) => osc_step P w s (os_freq s)) (Osc v (phase_at sr freq t) sr ic o) (replicate n tt)
    = (Osc v (phase_at sr freq (t + n)) sr ic o, b) /\ b = map (fun u => shape P w (phase_at sr freq u)) (seq t n).
Proof.
  revert t. induction n as [|n IH]; intros t Hf; cbn [replicate].
  - exists []. by rewrite Nat.add_0_r.
  - destruct (IH (S t)) as (b & Hb & Hb2). { intros u Hu. apply Hf. lia. }
    assert (E : osc_step P w (Osc v (phase_at sr freq t) sr ic o) v
                = (Osc v (phase_at sr freq (S t)) sr ic o, shape P w (phase_at sr freq t))).
    { assert (Ea : advance sr (phase_at sr freq t) v = phase_at sr freq (S t)).
      { cbn [phase_at]. rewrite (Hf t) by lia. done. }
      unfold osc_step, osc_set_phase. cbn [os_sr os_phase os_freq os_inc os_ord]. rewrite Ea. by destruct w. }
    rewrite scan_cons. cbv beta. change (os_freq (Osc v (phase_at sr freq t) sr ic o)) with v. rewrite E. cbn [fst snd].
    rewrite Hb. cbn [fst snd]. exists (shape P w (phase_at sr freq t) :: b).
    split; [|by rewrite Hb2]. by replace (t + S n) with (S t + n) by lia.
Qed.
Lemma osc_play P w sr v ic o freq k : forall t x, (forall u, t <= u < t + k * p_blk P -> freq u = v) ->
  exists outs, play P (Simple (NOsc w (Osc v (phase_at sr freq t) sr ic o))) [x] (replicate k [])
    = Ok (Simple (NOsc w (Osc v (phase_at sr freq (t + k * p_blk P)) sr ic o)), outs) /\
    lane 0 outs = map (fun u => shape P w (phase_at sr freq u)) (seq t (k * p_blk P)) /\
    exists x', default [x] (last outs) = [x'].
Proof.
  induction k as [|k IH]; intros t x Hf; cbn [replicate].
  - exists []. rewrite Nat.add_0_r. split_and!; [done|done|by exists x].
  - destruct (osc_scan P w sr v ic o freq (p_blk P) t) as (b & Hb & Hb2). { intros u Hu. apply Hf. cbn. lia. }
    destruct (IH (t + p_blk P) b) as (outs & Hp & Hl & x' & Hx'). { intros u Hu. apply Hf. cbn. lia. }
    exists ([b] :: outs). split_and!.
    + rewrite (play_cons P _ _ _ _ (Simple (NOsc w (Osc v (phase_at sr freq (t + p_blk P)) sr ic o))) [b]).
      * rewrite Hp. replace (t + S k * p_blk P) with (t + p_blk P + k * p_blk P) by (cbn; lia). done.
      * cbn [gproc sproc]. unfold osc_proc. rewrite Hb. by destruct w.
    + unfold lane. cbn [map List.concat]. change (List.concat _) with (lane 0 outs). rewrite Hl, Hb2. cbn.
      by rewrite seq_app, map_app.
    + rewrite last_cons. destruct (last outs) as [z|]; [by exists x'|by exists b].
Qed.
Theorem C61_osc_continues_partial P ev w a v ms o nd out k l : announced ms o ->
  created P ev (osc_comp w (Num a)) ms nd out ->
  exists n1 outs1 n2 n3 outs2, play P nd out (replicate k []) = Ok (n1, outs1) /\
    gmsg P n1 (SetToNumber 0 v) = Ok n2 /\ play P n2 (default out (last outs1)) (replicate l []) = Ok (n3, outs2) /\
    (lane 0 outs1 ++ lane 0 outs2)%list =
      map (fun t => shape P w (phase_at (e_sr ev) (fun u => if (u <? k * p_blk P)%nat then a else v) t)) (seq 0 ((k + l) * p_blk P)).
Proof.
  intros Hms Hc. destruct (osc_created P ev w (Num a) ms o nd out Hms Hc) as [-> ->]. cbn [num_or].
  set (freq := fun u => if (u <? k * p_blk P)%nat then a else v).
  destruct (osc_play P w (e_sr ev) a f0 o freq k 0 (silent P)) as (outs1 & H1 & L1 & x1 & X1).
  { intros u Hu. unfold freq. rewrite (proj2 (Nat.ltb_lt u _)); [done|lia]. }
  destruct (osc_play P w (e_sr ev) v f0 o freq l (0 + k * p_blk P) x1) as (outs2 & H2 & L2 & _).
  { intros u Hu. unfold freq. rewrite (proj2 (Nat.ltb_ge u _)); [done|lia]. }
  do 5 eexists. split; [exact H1|]. split; [reflexivity|]. rewrite X1. split; [exact H2|].
  rewrite L1, L2, Nat.mul_add_distr_r, seq_app, map_app. done.
Qed.
Example C61_osc_case : exists ms nd out, announced ms [] /\ created demo demo_env (osc_comp WSaw (Num (f_of_Z 440))) ms nd out.
Proof. exists []. do 2 eexists. split; [by split|]. do 2 eexists. split; reflexivity. Qed.

(** A saw oscillator with one input that has played, been set and played again, and a [mul]
    that has played two blocks: the hypotheses above are met. *)
Example C61_case : exists n out n1 out1,
  tunes any 0 (fun a => CSaw (Num a)) /\ sets_ok any [Block [(7, [fs [1; 2; 3; 4; 5; 6; 7; 8]%Z])]; Set_ (f_of_Z 3); Block []] /\
  created demo demo_env (CSaw (Num (f_of_Z 2))) [ResetOrder; IndexOrder 0 7] n out /\
  live_ demo 0 n out [Block [(7, [fs [1; 2; 3; 4; 5; 6; 7; 8]%Z])]; Set_ (f_of_Z 3); Block []] = Ok (n1, out1).
Proof.
  set (h := [Block _; _; _]).
  destruct (demo_created demo demo_env (CSaw (Num (f_of_Z 2))) [ResetOrder; IndexOrder 0 7]
    (fun n out => match live_ demo 0 n out h with Ok _ => true | Panic => false end) true) as (n & out & Hc & Hl).
  { vm_compute. reflexivity. }
  destruct (live_ demo 0 n out h) as [[n1 out1]|] eqn:E; [|discriminate Hl].
  exists n, out, n1, out1. split_and!; [constructor| |done|done]. repeat constructor.
Qed.
Example C61_as_created_case : exists na nv out n1 o1 n2 o2, steady any (fun a => CMul (Num a)) /\
  created demo demo_env (CMul (Num f2)) [Index 7] na out /\ created demo demo_env (CMul (Num fhalf)) [Index 7] nv out /\
  play demo na out [[(7, [fs [1; 2; 3; 4; 5; 6; 7; 8]%Z])]; []] = Ok (n1, o1) /\
  play demo nv out [[(7, [fs [1; 2; 3; 4; 5; 6; 7; 8]%Z])]; []] = Ok (n2, o2).
Proof. do 7 eexists. split_and!; [constructor|do 2 eexists; split; reflexivity|do 2 eexists; split; reflexivity|reflexivity|reflexivity]. Qed.

(** The claim fails for other nodes.  A pan position outside [-1, 1] is clamped by the message
    and not at creation; [delayn 0] lets the signal through and the message 0 panics; and
    setting the delay that is in force forgets what is in the delay line. *)
Theorem C61_pan_refuted : exists l1 l2,
  lefts (sees [submit "o: sig 4 >> pan -3.0"; play_block]) = [l1] /\
  lefts (sees [submit "o: sig 4 >> pan 0.5"; CMsg glicol c64 "o,1,0,-3.0"; play_block]) = [l2] /\ l1 <> l2.
Proof. do 2 eexists. split; [run_session|]. split; [run_session|]. vm_compute. discriminate. Qed.
Theorem C61_delayn_zero_refuted :
  lefts (sees [submit "o: sig 4 >> delayn 0"; play_block]) = [replicate 8 (f_of_Z 4)] /\
  sees [submit "o: sig 4 >> delayn 2"; CMsg glicol c64 "o,1,0,0"] = [Quiet; Panicked].
Proof. split; run_session. Qed.
Theorem C61_delayn_forgets_refuted :
  lefts (sees [submit "o: sig 4 >> delayn 2"; play_block; play_block]) =
    [fs [0; 0; 4; 4; 4; 4; 4; 4]%Z; replicate 8 (f_of_Z 4)] /\
  lefts (sees [submit "o: sig 4 >> delayn 2"; play_block; CMsg glicol c64 "o,1,0,2"; play_block]) =
    [fs [0; 0; 4; 4; 4; 4; 4; 4]%Z; fs [0; 0; 4; 4; 4; 4; 4; 4]%Z].
Proof. split; run_session. Qed.

(** ** C14: set_bpm *)

(** The tempo reaches every node that is running (and the nodes created from then on, which
    take it from the engine), and changes nothing else. *)
Theorem C14_reaches_every_node_partial (L : lang) (e e' : engine L) b : set_bpm L e b = Ok e' ->
  en_bpm L e' = b /\ en_info L e' = en_info L e /\ en_ast L e' = en_ast L e /\
  edges (en_graph L e') = edges (en_graph L e) /\
  forall n w, node_weight (en_graph L e) n = Some w ->
    exists st, nmsg w.1 (SetBPM b) = Ok st /\ node_weight (en_graph L e') n = Some (st, w.2).
Proof.
  unfold set_bpm. destruct (send_to_all L (en_graph L e) (SetBPM b)) as [g|] eqn:E; [|done]. intros [= <-].
  apply send_to_all_spec in E as (_ & He & _ & Hw). split_and!; try done.
  intros n w Hn. specialize (Hw n). by rewrite Hn in Hw.
Qed.

(** A sequencer that has played any blocks and is told the tempo [b] is the sequencer created
    at tempo [b] that has played the same blocks: same place in the bar count, same speed. *)
Definition at_tempo (ev : env sampledata) (b : f32) : env sampledata := Env (e_samples ev) (e_sr ev) b (e_seed ev).
Definition mk_seq evs ord sr (b : f32) (m : f32 * Z * list nat) : seqr := Seqr evs ord m.1.1 b sr m.1.2 m.2.
Lemma seq_scan_keeps {A} evs ord sr b (f : seqr -> A -> res (seqr * f32)) sp o xs :
  (forall st x s' y, f st x = Ok (s', y) -> s' = seq_set st (sq_speed st) (sq_step st + 1)) ->
  forall step s' ys, scanR f (mk_seq evs ord sr b (sp, step, o)) xs = Ok (s', ys) ->
    s' = mk_seq evs ord sr b (sp, (step + Z.of_nat (length xs))%Z, o).
Proof.
  intros Hf. induction xs as [|x xs IH]; intros step s' ys; cbn [scanR length].
  - intros [= <- _]. by rewrite Z.add_0_r.
  - destruct (f _ x) as [[s1 y]|] eqn:E; [|done]. apply Hf in E as ->.
    change (seq_set _ _ _) with (mk_seq evs ord sr b (sp, (step + 1)%Z, o)).
    destruct (scanR f _ xs) as [[s2 l]|] eqn:E2; [|done]. intros [= <- _]. apply IH in E2 as ->.
    by replace (step + 1 + Z.of_nat (length xs))%Z with (step + Z.of_nat (S (length xs)))%Z by lia.
Qed.
Lemma seq_proc_tempo P evs ord sr b b' m i o1 o2 s1 s2 q1 q2 :
  seq_proc P (mk_seq evs ord sr b m) i o1 = Ok (s1, q1) -> seq_proc P (mk_seq evs ord sr b' m) i o2 = Ok (s2, q2) ->
  exists m', s1 = mk_seq evs ord sr b m' /\ s2 = mk_seq evs ord sr b' m'.
Proof.
  destruct m as [[sp step] o]. unfold seq_proc. destruct i as [|p i].
  - intros H1 H2. exists (sp, (step + Z.of_nat (length (replicate (p_blk P) tt)))%Z, o). split.
    + destruct (scanR _ _ _) as [[s b1]|] eqn:E in H1; [|done]. destruct (put0 o1 b1); [|done]. injection H1 as <- _.
      eapply seq_scan_keeps; [|exact E]. intros st x s' y Hx. cbv beta in Hx. destruct (seq_sample _ _ _ _ _); [|done].
      by injection Hx as <- _.
    + destruct (scanR _ _ _) as [[s b1]|] eqn:E in H2; [|done]. destruct (put0 o2 b1); [|done]. injection H2 as <- _.
      eapply seq_scan_keeps; [|exact E]. intros st x s' y Hx. cbv beta in Hx. destruct (seq_sample _ _ _ _ _); [|done].
      by injection Hx as <- _.
  - change (sq_ord (mk_seq evs ord sr b (sp, step, o))) with o. change (sq_ord (mk_seq evs ord sr b' (sp, step, o))) with o.
    destruct (in_ord (p :: i) o 0) as [pb|]; [|done]. unfold mbind, res_bind, mret, res_ret.
    destruct (chan pb 0) as [p0|]; [|done]. destruct (unwrap (p0 !! 0)) as [v0|]; [|done].
    destruct (if fgtb v0 f0 then _ else _) as [has|]; [|done].
    set (sp' := if has : bool then v0 else sp).
    intros H1 H2. exists (sp', (step + Z.of_nat (length (seq 0 (p_blk P))))%Z, o). split.
    + destruct (scanR _ _ _) as [[s b1]|] eqn:E in H1; [|done]. destruct (put0 o1 b1); [|done]. injection H1 as <- _.
      eapply (seq_scan_keeps evs ord sr b _ sp'); [|exact E]. intros st x s' y Hx. cbv beta in Hx.
      destruct (seq_sample _ _ _ _ _); [|done]. by injection Hx as <- _.
    + destruct (scanR _ _ _) as [[s b1]|] eqn:E in H2; [|done]. destruct (put0 o2 b1); [|done]. injection H2 as <- _.
      eapply (seq_scan_keeps evs ord sr b' _ sp'); [|exact E]. intros st x s' y Hx. cbv beta in Hx.
      destruct (seq_sample _ _ _ _ _); [|done]. by injection Hx as <- _.
Qed.
Theorem C14_seq_partial P ev evs a b ms na nb out ins n1 o1 n2 o2 : Forall conn_msg ms ->
  created P (at_tempo ev a) (CSeq evs) ms na out -> created P (at_tempo ev b) (CSeq evs) ms nb out ->
  play P na out ins = Ok (n1, o1) -> play P nb out ins = Ok (n2, o2) ->
  gmsg P n1 (SetBPM b) = Ok n2.
Proof.
  intros Hms Ha Hb Hp1 Hp2. set (ord := order_of (dedup_refs [] (component_refs (CSeq evs)))).
  set (mk := fun t m => Simple (P := P) (NSeq (mk_seq evs ord (e_sr ev) t m))).
  assert (G : exists m, forall t n, created P (at_tempo ev t) (CSeq evs) ms n out -> n = mk t m).
  { assert (exists m, forall t, foldM (gmsg P) (mk t (f1, 0%Z, [])) ms = Ok (mk t m)) as [m Hm].
    { clear Ha Hb Hp1 Hp2. generalize (f1, 0%Z, @nil nat) as q. induction Hms as [|x ms Hx _ IH]; intros q; [by exists q|].
      assert (exists q', forall t, gmsg P (mk t q) x = Ok (mk t q')) as [q' Hq'].
      { destruct q as [[sp st] o]. destruct x as [| | |i|p i|]; try done.
        - by exists (sp, st, (o ++ [i])%list).
        - unfold conn_msg in Hx. subst p. by exists (sp, st, i :: o).
        - by exists (sp, st, []). }
      destruct (IH q') as [m Hm]. exists m. intros t. cbn [foldM]. by rewrite Hq'. }
    exists m. intros t n (n0 & refs & Hn & Hf).
    assert (n0 = mk t (f1, 0%Z, [])) as ->.
    { cbv beta delta [makenode_ boxed] iota zeta in Hn. injection Hn as <- _ _. done. }
    rewrite Hm in Hf. by injection Hf. }
  destruct G as [m Hm]. apply Hm in Ha as ->. apply Hm in Hb as ->. clear Hm.
  revert Hp1 Hp2. generalize out at 2 as out'. revert m out n1 n2 o1 o2.
  induction ins as [|i ins IH]; intros m out n1 n2 o1 o2 out'; cbn [play].
  - intros [= <- _] [= <- _]. done.
  - destruct (gproc P (mk a m) i out) as [[na oa]|] eqn:E1; [|done].
    destruct (gproc P (mk b m) i out') as [[nb ob]|] eqn:E2; [|done].
    unfold mk in E1, E2. cbn [gproc sproc] in E1, E2.
    destruct (seq_proc P (mk_seq evs ord (e_sr ev) a m) i out) as [[s1 q1]|] eqn:F1; [|done].
    destruct (seq_proc P (mk_seq evs ord (e_sr ev) b m) i out') as [[s2 q2]|] eqn:F2; [|done].
    destruct (seq_proc_tempo _ _ _ _ _ _ _ _ _ _ _ _ _ _ F1 F2) as (m' & -> & ->).
    injection E1 as <- <-. injection E2 as <- <-.
    fold (mk a m') (mk b m').
    destruct (play P (mk a m') q1 ins) as [[x1 y1]|] eqn:G1; [|done].
    destruct (play P (mk b m') q2 ins) as [[x2 y2]|] eqn:G2; [|done]. intros [= <- _] [= <- _]. by eapply IH.
Qed.
Example C14_case :
  lefts (sees [CSr glicol 4; CBpm glicol (f_of_Z 240); submit "o: seq 60 60"; play_block; play_block]) =
  lefts (sees [CSr glicol 4; submit "o: seq 60 60"; CBpm glicol (f_of_Z 240); play_block; play_block]) /\
  lefts (sees [CSr glicol 4; submit "o: seq 60 60"; play_block; play_block]) <>
  lefts (sees [CSr glicol 4; submit "o: seq 60 60"; CBpm glicol (f_of_Z 240); play_block; play_block]).
Proof. split; with_strategy transparent [peg_run W W1] vm_compute; [done|discriminate]. Qed.
Example C14_seq_case : exists na nb out n1 o1 n2 o2,
  created demo (at_tempo demo_env (f_of_Z 120)) (CSeq [(f0, Usz 60); (fhalf, Usz 72)]) [] na out /\
  created demo (at_tempo demo_env (f_of_Z 90)) (CSeq [(f0, Usz 60); (fhalf, Usz 72)]) [] nb out /\
  play demo na out [[]; []] = Ok (n1, o1) /\ play demo nb out [[]; []] = Ok (n2, o2).
Proof.
  assert (H : forall b, b = f_of_Z 120 \/ b = f_of_Z 90 ->
    exists n n1 o1, created demo (at_tempo demo_env b) (CSeq [(f0, Usz 60); (fhalf, Usz 72)]) [] n [silent demo; silent demo] /\
      play demo n [silent demo; silent demo] [[]; []] = Ok (n1, o1)).
  { intros b Hb.
    destruct (demo_created demo (at_tempo demo_env b) (CSeq [(f0, Usz 60); (fhalf, Usz 72)]) []
      (fun n out => (out, match play demo n out [[]; []] with Ok _ => true | Panic => false end)) ([silent demo; silent demo], true)) as (n & out & Hc & Hl).
    { destruct Hb as [-> | ->]; vm_compute; reflexivity. }
    injection Hl as -> Hl. change (match play demo n [silent demo; silent demo] [[]; []] with Ok _ => true | Panic => false end = true) in Hl.
    destruct (play demo n [silent demo; silent demo] [[]; []]) as [[n1 o1]|] eqn:E; [|discriminate Hl]. by exists n, n1, o1. }
  destruct (H (f_of_Z 120)) as (na & n1 & o1 & H1 & H2); [by left|].
  destruct (H (f_of_Z 90)) as (nb & n2 & o2 & H3 & H4); [by right|].
  exists na, nb, [silent demo; silent demo], n1, o1, n2, o2. auto.
Qed.
