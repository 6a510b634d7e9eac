(** HumHash refines a flat finite map. *)
From Verif Require Import PyStr PyStrProofs HashModel.

(** ** Specification: which entry a list of arguments names.

    The documentation of [HumHash] (humhash.py:168-180, 57-59) in rules.  An
    entry is named by two namespaces and a key. *)
Definition addr := (str * str * str)%type.
Definition plain (s : str) : Prop := char_in ":"%char s = false.

Inductive addresses : list str -> addr -> Prop :=
| Addr3 n1 n2 k : n2 <> [] -> addresses [n1; n2; k] (n1, n2, k)
| Addr3_single n1 k : n1 <> [] -> addresses [n1; []; k] ([], n1, k)
| Addr3_key k a : addresses [k] a -> addresses [[]; []; k] a
| Addr2 n2 k : n2 <> [] -> addresses [n2; k] ([], n2, k)
| Addr2_key k a : addresses [k] a -> addresses [[]; k] a
| Addr_plain k : plain k -> addresses [k] ([], [], k)
| Addr_one n2 k : plain n2 -> plain k -> addresses [n2 ++ ":"%char :: k] ([], n2, k)
| Addr_two n1 n2 k : plain n1 -> plain n2 -> plain k -> n2 <> [] ->
    addresses [n1 ++ ":"%char :: n2 ++ ":"%char :: k] (n1, n2, k)
| Addr_two_single n1 k : plain n1 -> plain k ->
    addresses [n1 ++ ":"%char :: ":"%char :: k] ([], n1, k).

(** Arguments that name some entry: everything but a colon-delimited text of
    four or more parts, or a wrong number of arguments. *)
Definition names_entry (args : list str) : Prop := exists a, addresses args a.

Definition addr_dec (a b : addr) : {a = b} + {a <> b}.
Proof. decide equality; [apply str_eq_dec|]. decide equality; apply str_eq_dec. Defined.

(** ** The rules are what the code computes *)

Lemma getKeyTuple_plain k : plain k -> getKeyTuple k = ([], [], k).
Proof. intro H. unfold getKeyTuple. rewrite split_char_no_sep by exact H. reflexivity. Qed.

Lemma fixup_one k a : addresses [k] a -> fixupNamespace1Namespace2Key [k] = Some a.
Proof.
  intro H. inversion H; subst; cbn [fixupNamespace1Namespace2Key]; unfold getKeyTuple.
  - rewrite split_char_no_sep by assumption. reflexivity.
  - rewrite split_char_app, split_char_no_sep by assumption. destruct n2; reflexivity.
  - rewrite !split_char_app, split_char_no_sep by assumption. destruct n2; [congruence|reflexivity].
  - rewrite split_char_app by assumption. change (":"%char :: k0) with ([] ++ ":"%char :: k0).
    rewrite split_char_app, split_char_no_sep by (assumption || reflexivity).
    destruct n1; reflexivity.
Qed.

Lemma addresses_fixup args a : addresses args a -> fixupNamespace1Namespace2Key args = Some a.
Proof.
  intro H. inversion H; subst.
  - destruct n1, n2; try congruence; reflexivity.
  - destruct n1; [congruence|reflexivity].
  - apply (fixup_one _ _ H0).
  - destruct n2; [congruence|reflexivity].
  - apply (fixup_one _ _ H0).
  - apply fixup_one, H.
  - apply fixup_one, H.
  - apply fixup_one, H.
  - apply fixup_one, H.
Qed.

Lemma addresses_fun args a b : addresses args a -> addresses args b -> a = b.
Proof. intros H1 H2. apply addresses_fixup in H1, H2. congruence. Qed.

(** ** Dictionaries *)
Section Dict.
  Context {V : Type}.
  Implicit Types d : dict V.

  Lemma dget_dset_same k v d : dget k (dset k v d) = Some v.
  Proof.
    induction d as [|[k' v'] d IH]; cbn.
    - rewrite str_eqb_refl. reflexivity.
    - destruct (str_eqb k k') eqn:E; cbn; rewrite E; [reflexivity|exact IH].
  Qed.

  Lemma dget_dset_other k j v d : j <> k -> dget j (dset k v d) = dget j d.
  Proof.
    intro N. induction d as [|[k' v'] d IH]; cbn.
    - apply str_eqb_neq in N. rewrite N. reflexivity.
    - destruct (str_eqb k k') eqn:E; cbn; [|destruct (str_eqb j k'); [reflexivity|exact IH]].
      apply str_eqb_eq in E; subst. apply str_eqb_neq in N. rewrite N. reflexivity.
  Qed.

  Lemma dget_ddel_other k j d : j <> k -> dget j (ddel k d) = dget j d.
  Proof.
    intro N. induction d as [|[k' v'] d IH]; cbn; [reflexivity|].
    destruct (str_eqb k k') eqn:E; cbn.
    - apply str_eqb_eq in E; subst. apply str_eqb_neq in N. rewrite N. reflexivity.
    - destruct (str_eqb j k'); [reflexivity|exact IH].
  Qed.

  Lemma dget_None_in k d : dget k d = None <-> ~ In k (map fst d).
  Proof.
    induction d as [|[k' v'] d IH]; cbn; [tauto|].
    destruct (str_eqb k k') eqn:E.
    - apply str_eqb_eq in E; subst. split; [discriminate|tauto].
    - apply str_eqb_neq in E. rewrite IH. intuition congruence.
  Qed.

  Lemma dget_Some_in k v d : NoDup (map fst d) -> (dget k d = Some v <-> In (k, v) d).
  Proof.
    induction d as [|[k' v'] d IH]; cbn; intro ND; [split; [discriminate|tauto]|].
    apply NoDup_cons_iff in ND as [ND1 ND2].
    destruct (str_eqb k k') eqn:E.
    - apply str_eqb_eq in E; subst. split; [intro H; left; congruence|].
      intros [H|H]; [congruence|]. destruct ND1. apply (in_map fst) in H. exact H.
    - apply str_eqb_neq in E. rewrite (IH ND2). split; [tauto|]. intros [H|H]; [congruence|exact H].
  Qed.

  Lemma dget_ddel_same k d : NoDup (map fst d) -> dget k (ddel k d) = None.
  Proof.
    induction d as [|[k' v'] d IH]; cbn; intro ND; [reflexivity|].
    apply NoDup_cons_iff in ND as [ND1 ND2].
    destruct (str_eqb k k') eqn:E; cbn.
    - apply str_eqb_eq in E; subst. apply dget_None_in. exact ND1.
    - rewrite E. apply IH; exact ND2.
  Qed.

  Lemma keys_dset k v d : map fst (dset k v d) = map fst d \/
                          (dget k d = None /\ map fst (dset k v d) = map fst d ++ [k]).
  Proof.
    induction d as [|[k' v'] d IH]; cbn; [right; split; reflexivity|].
    destruct (str_eqb k k') eqn:E; cbn; [left; reflexivity|].
    destruct IH as [->|[H1 ->]]; [left; reflexivity|right; split; [exact H1|reflexivity]].
  Qed.

  Lemma NoDup_dset k v d : NoDup (map fst d) -> NoDup (map fst (dset k v d)).
  Proof.
    intro ND. destruct (keys_dset k v d) as [->|[H ->]]; [exact ND|].
    apply dget_None_in in H.
    apply NoDup_remove_1 with (a := k) (l' := []) in ND || idtac.
    clear v. induction (map fst d) as [|x l IH]; cbn.
    - constructor; [intros []|constructor].
    - apply NoDup_cons_iff in ND as [ND1 ND2]. constructor.
      + rewrite in_app_iff. cbn in *. intuition.
      + apply IH; [exact ND2|]. cbn in H. tauto.
  Qed.

  Lemma ddel_incl k x d : In x (map fst (ddel k d)) -> In x (map fst d).
  Proof.
    induction d as [|[k' v'] d IH]; cbn; [tauto|].
    destruct (str_eqb k k'); cbn; intuition.
  Qed.

  Lemma NoDup_ddel k d : NoDup (map fst d) -> NoDup (map fst (ddel k d)).
  Proof.
    induction d as [|[k' v'] d IH]; cbn; intro ND; [exact ND|].
    apply NoDup_cons_iff in ND as [ND1 ND2].
    destruct (str_eqb k k'); cbn; [exact ND2|].
    constructor; [|apply IH; exact ND2]. intro H. apply ND1, ddel_incl with k, H.
  Qed.

  Lemma Forall_dset (P : V -> Prop) k v d :
    P v -> Forall (fun e => P (snd e)) d -> Forall (fun e => P (snd e)) (dset k v d).
  Proof.
    intros Hv. induction 1 as [|[k' v'] d H0 H IH]; cbn; [constructor; [exact Hv|constructor]|].
    destruct (str_eqb k k'); constructor; cbn in *; auto.
  Qed.

  Lemma Forall_dget (P : V -> Prop) k v d :
    Forall (fun e => P (snd e)) d -> dget k d = Some v -> P v.
  Proof.
    induction 1 as [|[k' v'] d H0 H IH]; cbn; [discriminate|].
    destruct (str_eqb k k'); [intro E; injection E as <-; exact H0|exact IH].
  Qed.
End Dict.

Section Refine.
  Context {V T : Type}.
  Notation params := (params V T).
  Notation param := (param V T).
  Implicit Types p : params.

  (** Invariant: no key occurs twice at any level. *)
  Definition wf2 (d : dict (dict param)) : Prop :=
    NoDup (map fst d) /\ Forall (fun e => NoDup (map fst (snd e))) d.
  Definition wf p : Prop := NoDup (map fst p) /\ Forall (fun e => wf2 (snd e)) p.

  Lemma wf_nil : wf [].
  Proof. split; constructor. Qed.

  Lemma wf_get p n1 d1 : wf p -> dget n1 p = Some d1 -> wf2 d1.
  Proof. intros [_ H]. apply (Forall_dget wf2 n1 d1 p H). Qed.

  Lemma wf2_get (d1 : dict (dict param)) n2 d2 : wf2 d1 -> dget n2 d1 = Some d2 -> NoDup (map fst d2).
  Proof. intros [_ H]. apply (Forall_dget (fun d : dict param => NoDup (map fst d)) n2 d2 d1 H). Qed.

  Lemma wf_put p n1 d1 : wf p -> wf2 d1 -> wf (dset n1 d1 p).
  Proof. intros [H1 H2] H. split; [apply NoDup_dset, H1|apply (Forall_dset wf2); assumption]. Qed.

  Lemma wf2_put (d1 : dict (dict param)) n2 d2 : wf2 d1 -> NoDup (map fst d2) -> wf2 (dset n2 d2 d1).
  Proof.
    intros [H1 H2] H. split; [apply NoDup_dset, H1|].
    apply (Forall_dset (fun d : dict param => NoDup (map fst d))); assumption.
  Qed.

  Lemma NoDup_single {A} (x : A) : NoDup [x].
  Proof. constructor; [intros []|constructor]. Qed.

  (** Effect of an update of one entry on every entry. *)
  Definition upd (f : addr -> option param) (a : addr) (v : option param) : addr -> option param :=
    fun b => if addr_dec b a then v else f b.

  Lemma setValue_spec args a v p :
    fixupNamespace1Namespace2Key args = Some a -> wf p ->
    exists p', setValue args v p = Some p' /\ wf p' /\
      forall b, find_param p' b = upd (find_param p) a (Some (Param v None)) b.
  Proof.
    intros F W. destruct a as [[n1 n2] k]. unfold setValue. rewrite F.
    destruct (dget n1 p) as [d1|] eqn:E1.
    - pose proof (wf_get _ _ _ W E1) as W1.
      destruct (dget n2 d1) as [d2|] eqn:E2.
      + pose proof (wf2_get _ _ _ W1 E2) as W2.
        eexists; split; [reflexivity|]. split.
        * apply wf_put; [exact W|apply wf2_put; [exact W1|apply NoDup_dset, W2]].
        * intros [[m1 m2] j]. unfold upd, find_param.
          destruct (addr_dec (m1, m2, j) (n1, n2, k)) as [E|N].
          -- injection E as -> -> ->. rewrite !dget_dset_same. reflexivity.
          -- destruct (str_eq_dec m1 n1) as [->|N1]; [|rewrite dget_dset_other by exact N1; reflexivity].
             rewrite dget_dset_same, E1.
             destruct (str_eq_dec m2 n2) as [->|N2]; [|rewrite dget_dset_other by exact N2; reflexivity].
             rewrite dget_dset_same, E2.
             apply dget_dset_other. congruence.
      + eexists; split; [reflexivity|]. split.
        * apply wf_put; [exact W|apply wf2_put; [exact W1|apply NoDup_single]].
        * intros [[m1 m2] j]. unfold upd, find_param.
          destruct (addr_dec (m1, m2, j) (n1, n2, k)) as [E|N].
          -- injection E as -> -> ->. rewrite !dget_dset_same. cbn. rewrite str_eqb_refl. reflexivity.
          -- destruct (str_eq_dec m1 n1) as [->|N1]; [|rewrite dget_dset_other by exact N1; reflexivity].
             rewrite dget_dset_same, E1.
             destruct (str_eq_dec m2 n2) as [->|N2]; [|rewrite dget_dset_other by exact N2; reflexivity].
             rewrite dget_dset_same, E2. cbn.
             assert (Hj : j <> k) by congruence. apply str_eqb_neq in Hj. rewrite Hj. reflexivity.
    - eexists; split; [reflexivity|]. split.
      + apply wf_put; [exact W|]. split; [apply NoDup_single|].
        constructor; [apply NoDup_single|constructor].
      + intros [[m1 m2] j]. unfold upd, find_param.
        destruct (addr_dec (m1, m2, j) (n1, n2, k)) as [E|N].
        * injection E as -> -> ->. rewrite !dget_dset_same. cbn. rewrite str_eqb_refl. cbn. rewrite str_eqb_refl. reflexivity.
        * destruct (str_eq_dec m1 n1) as [->|N1]; [|rewrite dget_dset_other by exact N1; reflexivity].
          rewrite dget_dset_same, E1. cbn [dget].
          destruct (str_eqb m2 n2) eqn:E2; [|reflexivity]. apply str_eqb_eq in E2; subst.
          cbn [dget]. assert (Hj : j <> k) by congruence. apply str_eqb_neq in Hj. rewrite Hj. reflexivity.
  Qed.

  Lemma upd_same_None p a : find_param p a = None ->
    forall b, find_param p b = upd (find_param p) a None b.
  Proof. intros H b. unfold upd. destruct (addr_dec b a); [subst; exact H|reflexivity]. Qed.

  Lemma deleteValue_spec args a p :
    fixupNamespace1Namespace2Key args = Some a -> wf p ->
    exists p', deleteValue args p = Some p' /\ wf p' /\
      forall b, find_param p' b = upd (find_param p) a None b.
  Proof.
    intros F W. destruct a as [[n1 n2] k]. unfold deleteValue. destruct p as [|e p0].
    { exists []. split; [reflexivity|]. split; [exact W|].
      intros b. unfold upd. destruct (addr_dec _ _); destruct b as [[? ?] ?]; reflexivity. }
    remember (e :: p0) as p eqn:Ep. rewrite F.
    destruct (dget n1 p) as [d1|] eqn:E1; [|eexists; split; [reflexivity|]; split; [exact W|]; apply upd_same_None; cbn; rewrite E1; reflexivity].
    pose proof (wf_get _ _ _ W E1) as W1.
    destruct (dget n2 d1) as [d2|] eqn:E2; [|eexists; split; [reflexivity|]; split; [exact W|]; apply upd_same_None; cbn; rewrite E1, E2; reflexivity].
    pose proof (wf2_get _ _ _ W1 E2) as W2.
    unfold dmem. destruct (dget k d2) as [q|] eqn:E3; [|eexists; split; [reflexivity|]; split; [exact W|]; apply upd_same_None; cbn; rewrite E1, E2; exact E3].
    eexists; split; [reflexivity|]. split.
    - apply wf_put; [exact W|apply wf2_put; [exact W1|apply NoDup_ddel, W2]].
    - intros [[m1 m2] j]. unfold upd, find_param.
      destruct (addr_dec (m1, m2, j) (n1, n2, k)) as [E|N].
      + injection E as -> -> ->. rewrite !dget_dset_same. apply dget_ddel_same, W2.
      + destruct (str_eq_dec m1 n1) as [->|N1]; [|rewrite dget_dset_other by exact N1; reflexivity].
        rewrite dget_dset_same, E1.
        destruct (str_eq_dec m2 n2) as [->|N2]; [|rewrite dget_dset_other by exact N2; reflexivity].
        rewrite dget_dset_same, E2. apply dget_ddel_other. congruence.
  Qed.

  Lemma setOrigin_spec args a o p :
    fixupNamespace1Namespace2Key args = Some a -> wf p ->
    exists p', setOrigin args o p = Some p' /\ wf p' /\
      forall b, find_param p' b =
        upd (find_param p) a (option_map (fun q => Param (p_value q) (Some o)) (find_param p a)) b.
  Proof.
    intros F W. destruct a as [[n1 n2] k]. unfold setOrigin. destruct p as [|e p0].
    { exists []. split; [reflexivity|]. split; [exact W|].
      intros b. unfold upd. destruct (addr_dec _ _); destruct b as [[? ?] ?]; reflexivity. }
    remember (e :: p0) as p eqn:Ep. rewrite F.
    cbn [find_param].
    destruct (dget n1 p) as [d1|] eqn:E1; [|eexists; split; [reflexivity|]; split; [exact W|]; apply upd_same_None; cbn; rewrite E1; reflexivity].
    pose proof (wf_get _ _ _ W E1) as W1.
    destruct (dget n2 d1) as [d2|] eqn:E2; [|eexists; split; [reflexivity|]; split; [exact W|]; apply upd_same_None; cbn; rewrite E1, E2; reflexivity].
    pose proof (wf2_get _ _ _ W1 E2) as W2.
    destruct (dget k d2) as [q|] eqn:E3; [|eexists; split; [reflexivity|]; split; [exact W|]; apply upd_same_None; cbn; rewrite E1, E2; exact E3].
    eexists; split; [reflexivity|]. split.
    - apply wf_put; [exact W|apply wf2_put; [exact W1|apply NoDup_dset, W2]].
    - intros [[m1 m2] j]. unfold upd, find_param.
      destruct (addr_dec (m1, m2, j) (n1, n2, k)) as [E|N].
      + injection E as -> -> ->. rewrite !dget_dset_same. reflexivity.
      + destruct (str_eq_dec m1 n1) as [->|N1]; [|rewrite dget_dset_other by exact N1; reflexivity].
        rewrite dget_dset_same, E1.
        destruct (str_eq_dec m2 n2) as [->|N2]; [|rewrite dget_dset_other by exact N2; reflexivity].
        rewrite dget_dset_same, E2. apply dget_dset_other. congruence.
  Qed.

  (** ** Histories *)

  Definition op_args (o : hop V T) : list str :=
    match o with HSet a _ => a | HDel a => a | HOrigin a _ => a end.

  Definition addr_of (args : list str) (b : addr) : bool :=
    match fixupNamespace1Namespace2Key args with
    | Some a => if addr_dec a b then true else false
    | None => false
    end.

  (** The entry at [b] after one more call. *)
  Definition entry_step (b : addr) (e : option param) (o : hop V T) : option param :=
    if addr_of (op_args o) b then
      match o with
      | HSet _ v => Some (Param v None)
      | HDel _ => None
      | HOrigin _ t => option_map (fun q => Param (p_value q) (Some t)) e
      end
    else e.

  Lemma names_fixup args : names_entry args -> exists a, fixupNamespace1Namespace2Key args = Some a.
  Proof. intros [a H]. exists a. apply addresses_fixup, H. Qed.

  Lemma hstep_spec o p : names_entry (op_args o) -> wf p ->
    exists p', hstep o p = Some p' /\ wf p' /\
      forall b, find_param p' b = entry_step b (find_param p b) o.
  Proof.
    intros N W. apply names_fixup in N as [a F].
    assert (S : forall e, (if addr_dec a e then true else false) = (if addr_dec e a then true else false)).
    { intro e. destruct (addr_dec a e), (addr_dec e a); congruence. }
    destruct o as [args v|args|args t]; cbn [op_args hstep] in *.
    - destruct (setValue_spec args a v p F W) as (p' & H1 & H2 & H3).
      exists p'. repeat split; try assumption; try apply H2. intro b. rewrite H3. unfold upd, entry_step, addr_of.
      cbn [op_args]. rewrite F, S. destruct (addr_dec b a); reflexivity.
    - destruct (deleteValue_spec args a p F W) as (p' & H1 & H2 & H3).
      exists p'. repeat split; try assumption; try apply H2. intro b. rewrite H3. unfold upd, entry_step, addr_of.
      cbn [op_args]. rewrite F, S. destruct (addr_dec b a); reflexivity.
    - destruct (setOrigin_spec args a t p F W) as (p' & H1 & H2 & H3).
      exists p'. repeat split; try assumption; try apply H2. intro b. rewrite H3. unfold upd, entry_step, addr_of.
      cbn [op_args]. rewrite F, S. destruct (addr_dec b a); [subst; reflexivity|reflexivity].
  Qed.

  Lemma hrun_spec ops : forall p, Forall (fun o => names_entry (op_args o)) ops -> wf p ->
    exists p', hrun ops p = Some p' /\ wf p' /\
      forall b, find_param p' b = fold_left (entry_step b) ops (find_param p b).
  Proof.
    induction ops as [|o ops IH]; intros p F W; cbn [hrun fold_left].
    - exists p. repeat split; try reflexivity; apply W.
    - apply Forall_cons_iff in F as [F1 F2].
      destruct (hstep_spec o p F1 W) as (p1 & -> & W1 & E1).
      destruct (IH p1 F2 W1) as (p2 & H & W2 & E2).
      exists p2. split; [exact H|]. split; [exact W2|]. intro b. rewrite E2, E1. reflexivity.
  Qed.

  (** ** The statements about histories *)

  (** Call [o] sets or deletes the entry [a]. *)
  Definition writes (a : addr) (o : hop V T) : Prop :=
    match o with HSet args _ | HDel args => addresses args a | HOrigin _ _ => False end.
  Definition sets (a : addr) (o : hop V T) : Prop :=
    match o with HSet args _ => addresses args a | _ => False end.
  Definition marks (a : addr) (o : hop V T) : Prop :=
    match o with HOrigin args _ => addresses args a | _ => False end.

  Lemma addr_of_true args a b : addresses args a -> addr_of args b = true -> a = b.
  Proof.
    intros H. unfold addr_of. rewrite (addresses_fixup _ _ H). destruct (addr_dec a b); [auto|discriminate].
  Qed.
  Lemma addr_of_self args a : addresses args a -> addr_of args a = true.
  Proof. intros H. unfold addr_of. rewrite (addresses_fixup _ _ H). destruct (addr_dec a a); congruence. Qed.

  Lemma no_write_keeps_value a ops : Forall (fun o => names_entry (op_args o)) ops ->
    (forall o, In o ops -> ~ writes a o) ->
    forall e, option_map p_value (fold_left (entry_step a) ops e) = option_map p_value e.
  Proof.
    induction ops as [|o ops IH]; intros F N e; cbn [fold_left]; [reflexivity|].
    apply Forall_cons_iff in F as [[b Hb] F2].
    rewrite IH; [|exact F2|intros o' I; apply N; right; exact I].
    unfold entry_step. destruct (addr_of (op_args o) a) eqn:E; [|reflexivity].
    pose proof (addr_of_true _ _ _ Hb E) as ->.
    destruct o as [args v|args|args t]; cbn in *.
    - destruct (N (HSet args v)); [left; reflexivity|exact Hb].
    - destruct (N (HDel args)); [left; reflexivity|exact Hb].
    - destruct e as [q|]; reflexivity.
  Qed.

  Lemma no_set_stays_None a ops : Forall (fun o => names_entry (op_args o)) ops ->
    (forall o, In o ops -> ~ sets a o) ->
    fold_left (entry_step a) ops None = None.
  Proof.
    induction ops as [|o ops IH]; intros F N; cbn [fold_left]; [reflexivity|].
    apply Forall_cons_iff in F as [[b Hb] F2].
    assert (E : entry_step a None o = None).
    { unfold entry_step. destruct (addr_of (op_args o) a) eqn:E; [|reflexivity].
      pose proof (addr_of_true _ _ _ Hb E) as ->.
      destruct o as [args v|args|args t]; cbn in *; try reflexivity.
      destruct (N (HSet args v)); [left; reflexivity|exact Hb]. }
    rewrite E. apply IH; [exact F2|intros o' I; apply N; right; exact I].
  Qed.

  Lemma getValue_find args a p : addresses args a ->
    getValue args p = Some (option_map p_value (find_param p a)).
  Proof.
    intro H. unfold getValue. destruct p as [|e p]; [destruct a as [[? ?] ?]; reflexivity|].
    rewrite (addresses_fixup _ _ H). reflexivity.
  Qed.
  Lemma getOrigin_find args a p : addresses args a ->
    getOrigin args p = Some (match find_param p a with Some q => p_origin q | None => None end).
  Proof.
    intro H. unfold getOrigin. destruct p as [|e p]; [destruct a as [[? ?] ?]; reflexivity|].
    rewrite (addresses_fixup _ _ H). reflexivity.
  Qed.
  Lemma isDefined_find args a p : addresses args a ->
    isDefined args p = Some (match find_param p a with Some q => true | None => false end).
  Proof.
    intro H. unfold isDefined. destruct p as [|e p]; [destruct a as [[? ?] ?]; reflexivity|].
    rewrite (addresses_fixup _ _ H). reflexivity.
  Qed.

  Theorem last_write_wins pre args v post a q :
    Forall (fun o => names_entry (op_args o)) (pre ++ HSet args v :: post) ->
    addresses args a -> (forall o, In o post -> ~ writes a o) -> addresses q a ->
    exists p, hrun (pre ++ HSet args v :: post) [] = Some p /\
      getValue q p = Some (Some v) /\ isDefined q p = Some true.
  Proof.
    intros F A N Q. destruct (hrun_spec _ [] F wf_nil) as (p & H & W & E).
    exists p. split; [exact H|]. rewrite (getValue_find _ _ _ Q), (isDefined_find _ _ _ Q).
    specialize (E a). rewrite fold_left_app in E. cbn [fold_left] in E.
    unfold entry_step at 2 in E. cbn [op_args] in E. rewrite (addr_of_self _ _ A) in E.
    apply Forall_app in F as [_ F]. apply Forall_cons_iff in F as [_ F].
    assert (E' : option_map p_value (find_param p a) = Some v).
    { rewrite E, (no_write_keeps_value a post F N). reflexivity. }
    rewrite E'. destruct (find_param p a); [split; reflexivity|discriminate].
  Qed.

  Theorem never_set pre post a q :
    (pre = [] \/ exists pre' args, pre = pre' ++ [HDel args] /\ addresses args a) ->
    Forall (fun o => names_entry (op_args o)) (pre ++ post) ->
    (forall o, In o post -> ~ sets a o) -> addresses q a ->
    exists p, hrun (pre ++ post) [] = Some p /\
      getValue q p = Some None /\ isDefined q p = Some false /\ getOrigin q p = Some None.
  Proof.
    intros P F N Q. destruct (hrun_spec _ [] F wf_nil) as (p & H & W & E).
    exists p. split; [exact H|].
    rewrite (getValue_find _ _ _ Q), (isDefined_find _ _ _ Q), (getOrigin_find _ _ _ Q).
    assert (E' : find_param p a = None).
    { rewrite E, fold_left_app. apply Forall_app in F as [_ F].
      destruct P as [->|(pre' & args & -> & A)].
      - cbn [fold_left]. replace (find_param [] a) with (@None param) by (destruct a as [[? ?] ?]; reflexivity).
        apply no_set_stays_None; assumption.
      - rewrite fold_left_app. cbn [fold_left]. unfold entry_step at 2. cbn [op_args].
        rewrite (addr_of_self _ _ A). apply no_set_stays_None; assumption. }
    rewrite E'. repeat split; reflexivity.
  Qed.

  Lemma hrun_app a b p : hrun (V:=V) (T:=T) (a ++ b) p = match hrun a p with Some p' => hrun b p' | None => None end.
  Proof. revert p. induction a as [|o a IH]; intro p; cbn; [reflexivity|]. destruct (hstep o p); [apply IH|reflexivity]. Qed.

  (** A call on one entry leaves every other entry alone. *)
  Theorem other_entries_unchanged ops o a q :
    Forall (fun o => names_entry (op_args o)) (ops ++ [o]) ->
    ~ addresses (op_args o) a -> addresses q a ->
    exists p p', hrun ops [] = Some p /\ hrun (ops ++ [o]) [] = Some p' /\
      getValue q p' = getValue q p /\ isDefined q p' = isDefined q p /\ getOrigin q p' = getOrigin q p.
  Proof.
    intros F N Q. apply Forall_app in F as [F F']. apply Forall_cons_iff in F' as [Fo _].
    destruct (hrun_spec ops [] F wf_nil) as (p & H & W & _).
    destruct (hstep_spec o p Fo W) as (p' & H' & W' & E').
    exists p, p'. split; [exact H|]. split; [rewrite hrun_app, H; cbn; rewrite H'; reflexivity|].
    rewrite !(getValue_find _ _ _ Q), !(isDefined_find _ _ _ Q), !(getOrigin_find _ _ _ Q).
    assert (E : find_param p' a = find_param p a).
    { rewrite E'. unfold entry_step. destruct (addr_of (op_args o) a) eqn:B; [|reflexivity].
      destruct Fo as [b Hb]. pose proof (addr_of_true _ _ _ Hb B) as ->. contradiction. }
    rewrite E. repeat split; reflexivity.
  Qed.

  Lemma no_mark_keeps_origin a ops : Forall (fun o => names_entry (op_args o)) ops ->
    (forall o, In o ops -> ~ writes a o /\ ~ marks a o) ->
    forall e, fold_left (entry_step a) ops e = e.
  Proof.
    induction ops as [|o ops IH]; intros F N e; cbn [fold_left]; [reflexivity|].
    apply Forall_cons_iff in F as [[b Hb] F2].
    assert (E : entry_step a e o = e).
    { unfold entry_step. destruct (addr_of (op_args o) a) eqn:E; [|reflexivity].
      pose proof (addr_of_true _ _ _ Hb E) as ->. exfalso.
      destruct (N o (or_introl eq_refl)) as [N1 N2].
      destruct o as [args v|args|args t]; cbn in *; tauto. }
    rewrite E. apply IH; [exact F2|intros o' I; apply N; right; exact I].
  Qed.

  (** The origin of an entry is the last one given since the entry was set. *)
  Theorem origin_last pre args v mid oargs t post a q :
    Forall (fun o => names_entry (op_args o)) (pre ++ HSet args v :: mid ++ HOrigin oargs t :: post) ->
    addresses args a -> addresses oargs a -> addresses q a ->
    (forall o, In o mid -> ~ writes a o) -> (forall o, In o post -> ~ writes a o /\ ~ marks a o) ->
    exists p, hrun (pre ++ HSet args v :: mid ++ HOrigin oargs t :: post) [] = Some p /\
      getOrigin q p = Some (Some t) /\ getValue q p = Some (Some v).
  Proof.
    intros F A O Q Nm Np. destruct (hrun_spec _ [] F wf_nil) as (p & H & W & E).
    exists p. split; [exact H|]. rewrite (getOrigin_find _ _ _ Q), (getValue_find _ _ _ Q).
    assert (X : find_param p a = Some (Param v (Some t))).
    { rewrite E, fold_left_app. cbn [fold_left].
      assert (R0 : forall e, entry_step a e (HSet args v) = Some (Param v None)).
      { intro e. unfold entry_step. cbn [op_args]. rewrite (addr_of_self _ _ A). reflexivity. }
      rewrite R0, fold_left_app. cbn [fold_left].
      apply Forall_app in F as [_ F]. apply Forall_cons_iff in F as [_ F].
      apply Forall_app in F as [Fm F]. apply Forall_cons_iff in F as [_ F].
      rewrite (no_mark_keeps_origin a post F Np).
      pose proof (no_write_keeps_value a mid Fm Nm (Some (Param v None))) as K. cbn [option_map p_value] in K.
      destruct (fold_left (entry_step a) mid (Some (Param v None))) as [r|]; [|discriminate].
      unfold entry_step. cbn [op_args]. rewrite (addr_of_self _ _ O).
      cbn [option_map] in *. injection K as ->. reflexivity. }
    rewrite X. split; reflexivity.
  Qed.

  (** ** Listings *)

  Definition listing2 (n1 : str) (d1 : dict (dict param)) : list addr :=
    flat_map (fun e2 : str * dict param => map (fun e3 : str * param => (n1, fst e2, fst e3)) (snd e2)) d1.
  Definition listing p : list addr := flat_map (fun e1 : str * dict (dict param) => listing2 (fst e1) (snd e1)) p.

  Lemma in_flat_map_keys {A B} (f : A -> list B) l y :
    In y (flat_map f l) <-> exists x, In x l /\ In y (f x).
  Proof. apply in_flat_map. Qed.

  Lemma NoDup_app {A} (a b : list A) : NoDup a -> NoDup b -> (forall x, In x a -> In x b -> False) -> NoDup (a ++ b).
  Proof.
    induction a as [|x a IH]; cbn; intros Ha Hb D; [exact Hb|].
    apply NoDup_cons_iff in Ha as [H1 H2]. constructor.
    - rewrite in_app_iff. intros [H|H]; [exact (H1 H)|exact (D x (or_introl eq_refl) H)].
    - apply IH; try assumption. intros y H H'. exact (D y (or_intror H) H').
  Qed.

  Lemma NoDup_map_inj {A B} (f : A -> B) l : (forall x y, f x = f y -> x = y) -> NoDup l -> NoDup (map f l).
  Proof.
    intros I. induction 1 as [|x l N ND IH]; cbn; constructor; [|exact IH].
    rewrite in_map_iff. intros (y & E & H). apply I in E; subst. contradiction.
  Qed.

  Lemma listing2_in n1 d1 m1 n2 k : wf2 d1 ->
    (In (m1, n2, k) (listing2 n1 d1) <->
     m1 = n1 /\ exists d2 q, dget n2 d1 = Some d2 /\ dget k d2 = Some q).
  Proof.
    intros [ND F]. unfold listing2. rewrite in_flat_map. split.
    - intros ([n2' d2] & I & J). cbn in J. apply in_map_iff in J as ([k' q] & E & J). cbn in E.
      injection E as <- <- <-. split; [reflexivity|]. exists d2, q. split.
      + apply dget_Some_in; assumption.
      + apply dget_Some_in; [|exact J]. rewrite Forall_forall in F. apply (F _ I).
    - intros (-> & d2 & q & E2 & E3). exists (n2, d2). split; [apply dget_Some_in; assumption|].
      cbn. apply in_map_iff. exists (k, q). split; [reflexivity|].
      apply dget_Some_in; [|exact E3]. apply dget_Some_in in E2; [|exact ND].
      rewrite Forall_forall in F. apply (F _ E2).
  Qed.

  Lemma NoDup_flat_map {A B} (key : A -> str) (f : A -> list B) (g : B -> str) l :
    NoDup (map key l) -> Forall (fun x => NoDup (f x)) l ->
    (forall x y, In y (f x) -> g y = key x) -> NoDup (flat_map f l).
  Proof.
    intros ND F G. induction l as [|x l IH]; cbn in *; [constructor|].
    apply NoDup_cons_iff in ND as [N1 N2]. apply Forall_cons_iff in F as [F1 F2].
    apply NoDup_app; [exact F1|apply IH; assumption|].
    intros y H H'. apply in_flat_map in H' as (x' & I & J).
    apply G in H, J. apply N1. rewrite <- H, J. apply in_map, I.
  Qed.

  Lemma map_map_fst {A} (n1 n2 : str) (d : dict A) :
    map (fun e3 : str * A => (n1, n2, fst e3)) d = map (fun k => (n1, n2, k)) (map fst d).
  Proof. rewrite map_map. reflexivity. Qed.

  Lemma listing2_NoDup n1 d1 : wf2 d1 -> NoDup (listing2 n1 d1).
  Proof.
    intros [ND F]. unfold listing2.
    apply (NoDup_flat_map fst _ (fun a : addr => snd (fst a))); [exact ND| |].
    - eapply Forall_impl; [|exact F]. intros [n2 d2] H. cbn in *. rewrite map_map_fst.
      apply NoDup_map_inj; [congruence|exact H].
    - intros [n2 d2] [[a b] c] H. cbn in *. apply in_map_iff in H as (e & E & _). congruence.
  Qed.

  Lemma listing_in p a : wf p -> (In a (listing p) <-> find_param p a <> None).
  Proof.
    intros [ND F]. destruct a as [[n1 n2] k]. unfold listing. rewrite in_flat_map. split.
    - intros ([m1 d1] & I & J). cbn in J.
      assert (W1 : wf2 d1) by (rewrite Forall_forall in F; apply (F _ I)).
      apply listing2_in in J; [|exact W1]. destruct J as (-> & d2 & q & E2 & E3).
      cbn. apply dget_Some_in in I; [|exact ND]. rewrite I, E2, E3. discriminate.
    - cbn. destruct (dget n1 p) as [d1|] eqn:E1; [|congruence].
      destruct (dget n2 d1) as [d2|] eqn:E2; [|congruence].
      destruct (dget k d2) as [q|] eqn:E3; [|congruence]. intros _.
      pose proof (Forall_dget wf2 _ _ _ F E1) as W1.
      exists (n1, d1). split; [apply dget_Some_in; assumption|].
      apply listing2_in; [exact W1|]. split; [reflexivity|]. eauto.
  Qed.

  Lemma listing_NoDup p : wf p -> NoDup (listing p).
  Proof.
    intros [ND F]. apply (NoDup_flat_map fst _ (fun a : addr => fst (fst a))); [exact ND| |].
    - eapply Forall_impl; [|exact F]. intros [n1 d1] H. apply listing2_NoDup, H.
    - intros [n1 d1] [[a b] c] H. cbn in *. unfold listing2 in H. apply in_flat_map in H as ([n2 d2] & I & J).
      cbn in J. apply in_map_iff in J as (e & E & _). congruence.
  Qed.

  Definition show_addr (a : addr) : str :=
    fst (fst a) ++ colon ++ snd (fst a) ++ colon ++ snd a.
  Definition show_addr2 (a : addr) : str := snd (fst a) ++ colon ++ snd a.

  Lemma getKeys_inner n1 (d1 : dict (dict param)) :
    flat_map (fun e2 : str * dict param => map (fun e3 : str * param =>
      n1 ++ colon ++ fst e2 ++ colon ++ fst e3) (snd e2)) d1 = map show_addr (listing2 n1 d1).
  Proof.
    unfold listing2. induction d1 as [|[n2 d2] d1 IH]; [reflexivity|].
    cbn [flat_map fst snd]. rewrite map_app. f_equal; [rewrite map_map; reflexivity|exact IH].
  Qed.

  Lemma getKeys_all p : getKeys None None p = map show_addr (listing p).
  Proof.
    unfold getKeys, listing. cbn [fixupNamespace1Namespace2].
    induction p as [|[n1 d1] p IH]; [reflexivity|].
    cbn [flat_map fst snd]. rewrite map_app. f_equal; [apply getKeys_inner|exact IH].
  Qed.

  Lemma getKeys_one n1 p : getKeys (Some n1) None p =
    map show_addr2 (match dget n1 p with Some d1 => listing2 n1 d1 | None => [] end).
  Proof.
    unfold getKeys. cbn [fixupNamespace1Namespace2 keyTuple_len Nat.eqb].
    destruct (dget n1 p) as [d1|]; [|reflexivity].
    unfold listing2. induction d1 as [|[n2 d2] d1 IH]; [reflexivity|].
    cbn [flat_map fst snd]. rewrite map_app. f_equal; [rewrite map_map; reflexivity|exact IH].
  Qed.

  Lemma count2 (d1 : dict (dict param)) n1 c :
    fold_left (fun c (e2 : str * dict param) => c + length (snd e2)) d1 c = c + length (listing2 n1 d1).
  Proof.
    revert c. unfold listing2. induction d1 as [|[n2 d2] d1 IH]; intro c; cbn [fold_left flat_map].
    - cbn. lia.
    - rewrite IH. rewrite app_length, map_length. cbn [snd]. rewrite Nat.add_assoc. reflexivity.
  Qed.

  Lemma count_all p : getParameterCount None None p = length (listing p).
  Proof.
    unfold getParameterCount. cbn [fixupNamespace1Namespace2].
    assert (H : forall p c, fold_left (fun c (e1 : str * dict (dict param)) =>
        fold_left (fun c (e2 : str * dict param) => c + length (snd e2)) (snd e1) c) p c
        = c + length (listing p)).
    { clear p. induction p as [|[n1 d1] p IH]; intro c; cbn [fold_left listing flat_map].
      - cbn. lia.
      - rewrite IH. cbn [fst snd]. rewrite (count2 d1 n1), app_length. rewrite Nat.add_assoc. reflexivity. }
    rewrite H. reflexivity.
  Qed.

  Lemma has2 (d1 : dict (dict param)) n1 :
    existsb (fun e2 : str * dict param => nonempty (snd e2)) d1 = nonempty (listing2 n1 d1).
  Proof.
    unfold listing2. induction d1 as [|[n2 d2] d1 IH]; [reflexivity|].
    cbn [existsb flat_map snd fst]. rewrite IH. destruct d2; reflexivity.
  Qed.

  Lemma has_all p : hasParameters None None p = nonempty (listing p).
  Proof.
    unfold hasParameters. cbn [fixupNamespace1Namespace2]. unfold listing.
    induction p as [|[n1 d1] p IH]; [reflexivity|].
    cbn [existsb flat_map snd fst].
    etransitivity; [apply f_equal2; [apply (has2 d1 n1)|exact IH]|]. destruct (listing2 n1 d1); reflexivity.
  Qed.

  Lemma has_ns n1 p : hasParameters (Some n1) None p =
    nonempty (match dget n1 p with Some d1 => listing2 n1 d1 | None => [] end).
  Proof.
    unfold hasParameters. cbn [fixupNamespace1Namespace2 keyTuple_len Nat.eqb].
    destruct (dget n1 p) as [d1|]; [apply (has2 d1 n1)|reflexivity].
  Qed.

  Theorem listing_exact ops :
    Forall (fun o => names_entry (op_args o)) ops ->
    exists p entries, hrun ops [] = Some p /\ NoDup entries /\
      (forall q a, addresses q a -> (In a entries <-> isDefined q p = Some true)) /\
      getKeys None None p = map show_addr entries /\
      getParameterCount None None p = length entries /\
      (hasParameters None None p = true <-> entries <> []).
  Proof.
    intro F. destruct (hrun_spec _ [] F wf_nil) as (p & H & W & E).
    exists p, (listing p). repeat split; try assumption.
    - apply listing_NoDup, W.
    - intro I. rewrite (isDefined_find _ _ _ H0). apply listing_in in I; [|exact W].
      destruct (find_param p a); [reflexivity|congruence].
    - intro I. rewrite (isDefined_find _ _ _ H0) in I. apply listing_in; [exact W|].
      destruct (find_param p a); [discriminate|discriminate].
    - apply getKeys_all.
    - apply count_all.
    - rewrite has_all. destruct (listing p); [discriminate|discriminate].
    - rewrite has_all. destruct (listing p); [congruence|reflexivity].
  Qed.

  (** The same for one namespace, and for a namespace pair. *)
  Theorem listing_exact_ns ops n1 :
    Forall (fun o => names_entry (op_args o)) ops ->
    exists p entries, hrun ops [] = Some p /\ NoDup entries /\
      (forall a, In a entries <-> fst (fst a) = n1 /\ find_param p a <> None) /\
      getKeys (Some n1) None p = map show_addr2 entries /\
      getParameterCount (Some n1) None p = length entries /\
      (hasParameters (Some n1) None p = true <-> entries <> []).
  Proof.
    intro F. destruct (hrun_spec _ [] F wf_nil) as (p & H & W & E).
    exists p, (match dget n1 p with Some d1 => listing2 n1 d1 | None => [] end).
    split; [exact H|].
    assert (W1 : forall d1, dget n1 p = Some d1 -> wf2 d1) by (intros d1; apply wf_get, W).
    repeat split.
    - destruct (dget n1 p) as [d1|]; [apply listing2_NoDup, W1; reflexivity|constructor].
    - destruct (dget n1 p) as [d1|]; [|destruct H0]. destruct a as [[m1 m2] k].
      apply listing2_in in H0; [|apply W1; reflexivity]. apply H0.
    - destruct (dget n1 p) as [d1|] eqn:E1; [|destruct H0]. destruct a as [[m1 m2] k].
      apply listing2_in in H0; [|apply W1; reflexivity]. destruct H0 as (-> & d2 & q & E2 & E3).
      cbn. rewrite E1, E2, E3. discriminate.
    - destruct a as [[m1 m2] k]. cbn. intros [-> N]. destruct (dget n1 p) as [d1|]; [|congruence].
      apply listing2_in; [apply W1; reflexivity|]. split; [reflexivity|].
      destruct (dget m2 d1) as [d2|]; [|congruence]. destruct (dget k d2) as [q|] eqn:E3; [|congruence]. eauto.
    - apply getKeys_one.
    - unfold getParameterCount. cbn [fixupNamespace1Namespace2 keyTuple_len Nat.eqb].
      destruct (dget n1 p) as [d1|]; [|reflexivity]. rewrite (count2 d1 n1). reflexivity.
    - rewrite has_ns. destruct (match dget n1 p with Some d1 => listing2 n1 d1 | None => [] end); discriminate.
    - rewrite has_ns. generalize (match dget n1 p with Some d1 => listing2 n1 d1 | None => [] end).
      intros [|x l] X; [destruct X; reflexivity|reflexivity].
  Qed.

  Theorem listing_exact_ns2 ops n1 n2 :
    Forall (fun o => names_entry (op_args o)) ops ->
    exists p, hrun ops [] = Some p /\ NoDup (getKeys (Some n1) (Some n2) p) /\
      (forall k, In k (getKeys (Some n1) (Some n2) p) <-> find_param p (n1, n2, k) <> None) /\
      getParameterCount (Some n1) (Some n2) p = length (getKeys (Some n1) (Some n2) p) /\
      (hasParameters (Some n1) (Some n2) p = true <-> getKeys (Some n1) (Some n2) p <> []).
  Proof.
    intro F. destruct (hrun_spec _ [] F wf_nil) as (p & H & W & E).
    exists p. split; [exact H|]. unfold getKeys, getParameterCount, hasParameters, find_param.
    cbn [fixupNamespace1Namespace2].
    destruct (dget n1 p) as [d1|] eqn:E1.
    2:{ split; [constructor|]. split; [intro k; cbn; split; [intros []|congruence]|].
        split; [reflexivity|]. split; [discriminate|congruence]. }
    pose proof (wf_get _ _ _ W E1) as W1.
    destruct (dget n2 d1) as [d2|] eqn:E2.
    2:{ split; [constructor|]. split; [intro k; cbn; split; [intros []|congruence]|].
        split; [reflexivity|]. split; [discriminate|congruence]. }
    pose proof (wf2_get _ _ _ W1 E2) as W2.
    split; [exact W2|]. split; [|split; [symmetry; apply map_length|]].
    - intro k. destruct (dget k d2) as [q|] eqn:E3.
      + split; [discriminate|]. intros _. apply (in_map fst (d2 : list (str * param)) (k, q)).
        apply dget_Some_in; assumption.
      + apply dget_None_in in E3. split; [contradiction|congruence].
    - destruct d2; cbn; split; congruence || discriminate || reflexivity.
  Qed.
End Refine.
