(** C147: what a <scoreDef> or <staffDef> between measures of an MEI file defines is put at
    the beginning of the next measure, once. *)
From Coq Require Import List Ascii String NArith Bool Arith Permutation.
From Verif Require Import PyStr PyStrProofs MeiSectionModel PropsMeiSection.
Import ListNotations.

(** What a <scoreDef> gives to a part: its objects for the part; of its objects for all parts
    those of types of which the part has none of its own, the last of each type; and for the
    top part the objects for the top part. *)
Definition is_last_of_type (o : obj) (all : list obj) : Prop :=
  exists a b, all = a ++ o :: b /\ forall x, In x b -> typeStr x <> typeStr o.

Lemma dict_set_in : forall o d x,
  In x (dict_set o d) -> x = o \/ (In x d /\ typeStr x <> typeStr o)
                         \/ (In x d /\ exists a b y, d = a ++ y :: b /\ typeStr y = typeStr o
                                                     /\ (In x a \/ In x b)).
Proof.
  induction d as [|y d IH]; intros x H; cbn [dict_set] in H.
  - destruct H as [H|[]]. left. symmetry. exact H.
  - destruct (str_eqb (typeStr y) (typeStr o)) eqn:E.
    + apply str_eqb_eq in E. destruct H as [H|H]; [left; symmetry; exact H|].
      right. right. split; [right; exact H|].
      exists [], d, y. split; [reflexivity|]. split; [exact E|]. right. exact H.
    + apply str_eqb_neq in E. destruct H as [H|H].
      * subst x. right. left. split; [left; reflexivity|exact E].
      * apply IH in H as [H|[[H1 H2]|[H1 [a [b [z [H2 [H3 H4]]]]]]]].
        -- left. exact H.
        -- right. left. split; [right; exact H1|exact H2].
        -- right. right. split; [right; exact H1|].
           exists (y :: a), b, z. subst d. split; [reflexivity|]. split; [exact H3|].
           destruct H4 as [H4|H4]; [left; right; exact H4|right; exact H4].
Qed.

(** No two objects of a dict have one type. *)
Lemma dict_set_types : forall o d,
  NoDup (map typeStr d) ->
  NoDup (map typeStr (dict_set o d))
  /\ (forall t, In t (map typeStr (dict_set o d)) <-> t = typeStr o \/ In t (map typeStr d)).
Proof.
  induction d as [|y d IH]; intros H; cbn [dict_set map].
  - split; [constructor; [intros []|constructor]|].
    intros t. cbn [In]. split; intros [K|[]]; left; symmetry; exact K.
  - inversion H as [|? ? N H']. subst. destruct (IH H') as [I1 I2].
    destruct (str_eqb (typeStr y) (typeStr o)) eqn:E.
    + apply str_eqb_eq in E. cbn [map]. rewrite <- E. split.
      * constructor; assumption.
      * intros t. cbn [In]. split.
        -- intros K. right. exact K.
        -- intros [K|K]; [left; symmetry; exact K|exact K].
    + apply str_eqb_neq in E. cbn [map]. split.
      * constructor; [|exact I1]. intros K. apply I2 in K as [K|K]; [exact (E K)|exact (N K)].
      * intros t. cbn [In]. rewrite I2. tauto.
Qed.

Lemma dict_set_keeps : forall o d x,
  NoDup (map typeStr d) ->
  (In x (dict_set o d) <-> x = o \/ (In x d /\ typeStr x <> typeStr o)).
Proof.
  intros o d x H. split.
  - intros K. apply dict_set_in in K as [K|[K|[K1 [a [b [y [K2 [K3 K4]]]]]]]];
      [left; exact K|right; exact K|].
    right. split; [exact K1|]. intros E. subst d. rewrite map_app in H. cbn [map] in H.
    apply NoDup_remove_2 in H. apply H. rewrite K3, <- E. apply in_or_app.
    destruct K4 as [K4|K4]; [left|right]; apply in_map; exact K4.
  - induction d as [|y d IH]; cbn [dict_set].
    + intros [K|[[] _]]. left. symmetry. exact K.
    + inversion H as [|? ? N H']. subst. destruct (str_eqb (typeStr y) (typeStr o)) eqn:E.
      * apply str_eqb_eq in E. intros [K|[[K|K] K2]].
        -- left. symmetry. exact K.
        -- subst y. contradiction.
        -- right. exact K.
      * apply str_eqb_neq in E. intros [K|[[K|K] K2]].
        -- right. apply IH; [exact H'|left; exact K].
        -- left. exact K.
        -- right. apply IH; [exact H'|]. right. split; assumption.
Qed.

Lemma defaults_snoc : forall l o, defaults (l ++ [o]) = dict_set o (defaults l).
Proof. intros l o. unfold defaults. rewrite fold_left_app. reflexivity. Qed.

Lemma defaults_types : forall l, NoDup (map typeStr (defaults l)).
Proof.
  intros l. induction l as [|o l IH] using rev_ind; [constructor|].
  rewrite defaults_snoc. apply dict_set_types. exact IH.
Qed.

Lemma defaults_in : forall l x, In x (defaults l) <-> is_last_of_type x l.
Proof.
  intros l. induction l as [|o l IH] using rev_ind; intros x.
  - split; [intros []|]. intros [a [b [H _]]]. destruct a; discriminate H.
  - rewrite defaults_snoc, dict_set_keeps; [|apply defaults_types]. split.
    + intros [K|[K1 K2]].
      * subst x. exists l, []. split; [reflexivity|]. intros y [].
      * apply IH in K1 as [a [b [K3 K4]]]. exists a, (b ++ [o]).
        subst l. rewrite <- app_assoc. split; [reflexivity|].
        intros y Hy. apply in_app_or in Hy as [Hy|[Hy|[]]]; [apply K4; exact Hy|].
        subst y. intros E. apply K2. symmetry. exact E.
    + intros [a [b [K1 K2]]]. destruct b as [|z b] using rev_ind.
      * apply app_inj_tail in K1 as [_ K1]. left. symmetry. exact K1.
      * clear IHb. rewrite app_comm_cons, app_assoc in K1.
        apply app_inj_tail in K1 as [K1 K3]. right. split.
        -- apply IH. exists a, b. split; [exact K1|]. intros y Hy. apply K2.
           apply in_or_app. left. exact Hy.
        -- intros E. apply (K2 z); [apply in_or_app; right; left; reflexivity|].
           subst z. symmetry. exact E.
Qed.

(** The part's own objects, and the default objects of the types that the part has not. *)
Theorem C147_scoredef : forall topN n top all own o,
  In o (scoreDef_for topN n top all own)
  <-> (topN = n /\ In o top)
      \/ (exists l, own_of n own = Some l /\ In o l)
      \/ (is_last_of_type o all
          /\ forall l x, own_of n own = Some l -> In x l -> typeStr x <> typeStr o).
Proof.
  intros topN n top all own o. unfold scoreDef_for. rewrite in_app_iff.
  assert (T : In o (if str_eqb topN n then top else []) <-> topN = n /\ In o top).
  { destruct (str_eqb topN n) eqn:E.
    - apply str_eqb_eq in E. tauto.
    - apply str_eqb_neq in E. split; [intros []|]. intros [K _]. exact (E K). }
  rewrite T. destruct (own_of n own) as [l|] eqn:E.
  - rewrite in_app_iff, filter_In, defaults_in. split.
    + intros [K|[K|[K1 K2]]]; [left; exact K|right; left; exists l; split; [reflexivity|exact K]|].
      right. right. split; [exact K1|]. intros l' x L X. injection L as L. subst l'.
      apply negb_true_iff in K2. intros Q.
      assert (Y : existsb (fun o0 => str_eqb (typeStr o0) (typeStr o)) l = true).
      { apply existsb_exists. exists x. split; [exact X|]. apply str_eqb_eq. exact Q. }
      congruence.
    + intros [K|[[l' [L K]]|[K1 K2]]]; [left; exact K| |].
      * injection L as L. subst l'. right. left. exact K.
      * right. right. split; [exact K1|]. apply negb_true_iff.
        destruct (existsb (fun o0 => str_eqb (typeStr o0) (typeStr o)) l) eqn:X; [|reflexivity].
        apply existsb_exists in X as [x [X1 X2]]. apply str_eqb_eq in X2.
        contradiction (K2 l x eq_refl X1 X2).
  - rewrite defaults_in. split.
    + intros [K|K]; [left; exact K|]. right. right. split; [exact K|]. intros l x L. discriminate L.
    + intros [K|[[l [L _]]|[K _]]]; [left; exact K|discriminate L|right; exact K].
Qed.
Print Assumptions C147_scoredef.

(** The file without its nesting: measures, definitions and the rest in their order. *)
Fixpoint flat (e : elem) : list elem :=
  match e with
  | Section _ b => flat_map flat b
  | e => [e]
  end.

Section Part.
Variables topN n : str.

Definition gives (e : elem) : list obj :=
  match e with
  | ScoreDef top all own => scoreDef_for topN n top all own
  | StaffDef (Some k) objs => if str_eqb k n then objs else []
  | _ => []
  end.

(** For every measure, what was defined since the measure before. *)
Fixpoint due (acc : list obj) (l : list elem) : list (nat * list obj) :=
  match l with
  | [] => []
  | Measure id _ _ :: r => (id, acc) :: due [] r
  | e :: r => due (acc ++ gives e) r
  end.

(** What is defined after the last measure. *)
Fixpoint left_over (acc : list obj) (l : list elem) : list obj :=
  match l with
  | [] => acc
  | Measure _ _ _ :: r => left_over [] r
  | e :: r => left_over (acc ++ gives e) r
  end.

Lemma due_app : forall a b acc, due acc (a ++ b) = due acc a ++ due (left_over acc a) b.
Proof.
  induction a as [|e a IH]; intros b acc; [reflexivity|].
  destruct e; cbn [app due left_over]; rewrite IH; reflexivity.
Qed.

Lemma left_over_app : forall a b acc, left_over acc (a ++ b) = left_over (left_over acc a) b.
Proof.
  induction a as [|e a IH]; intros b acc; [reflexivity|].
  destruct e; cbn [app left_over]; apply IH.
Qed.

(** For every measure of a part, what is in it at its beginning: instruments stand before it. *)
Fixpoint applied (acc : list obj) (l : list item) : list (nat * list obj) :=
  match l with
  | [] => []
  | IMeasure id os _ _ :: r => (id, acc ++ os) :: applied [] r
  | IInstrument o :: r => applied (acc ++ [o]) r
  | IBracket _ _ :: r => applied acc r
  end.

Fixpoint unapplied (acc : list obj) (l : list item) : list obj :=
  match l with
  | [] => acc
  | IMeasure _ _ _ _ :: r => unapplied [] r
  | IInstrument o :: r => unapplied (acc ++ [o]) r
  | IBracket _ _ :: r => unapplied acc r
  end.

Lemma applied_app : forall a b acc,
  applied acc (a ++ b) = applied acc a ++ applied (unapplied acc a) b.
Proof.
  induction a as [|e a IH]; intros b acc; [reflexivity|].
  destruct e; cbn [app applied unapplied]; rewrite IH; reflexivity.
Qed.

Lemma unapplied_app : forall a b acc, unapplied acc (a ++ b) = unapplied (unapplied acc a) b.
Proof.
  induction a as [|e a IH]; intros b acc; [reflexivity|].
  destruct e; cbn [app unapplied]; apply IH.
Qed.

(** The same objects in the same measures; the objects of one measure all are at its
    beginning, so their order is left open. *)
Definition same_one (x y : nat * list obj) : Prop :=
  fst x = fst y /\ Permutation (snd x) (snd y).
Definition same (a b : list (nat * list obj)) : Prop := Forall2 same_one a b.

Lemma same_refl : forall a, same a a.
Proof.
  induction a as [|x a IH]; constructor; [split; [reflexivity|apply Permutation_refl]|exact IH].
Qed.

Lemma same_trans : forall a b c, same a b -> same b c -> same a c.
Proof.
  induction a as [|x a IH]; intros b c H K; inversion H as [|? y ? b' [H1 H2] H3]; subst;
    inversion K as [|? z ? c' [K1 K2] K3]; subst; constructor.
  - split; [congruence|]. eapply Permutation_trans; eassumption.
  - eapply IH; eassumption.
Qed.

Lemma same_app : forall a b c d, same a b -> same c d -> same (a ++ c) (b ++ d).
Proof. intros a b c d H K. apply Forall2_app; assumption. Qed.

Definition add_first (o : list obj) (l : list (nat * list obj)) : list (nat * list obj) :=
  match l with
  | [] => []
  | (id, x) :: r => (id, x ++ o) :: r
  end.

Lemma same_add_first : forall o a b, same a b -> same (add_first o a) (add_first o b).
Proof.
  intros o a b H. destruct H as [|[i x] [j y] a b [H1 H2] H]; [constructor|].
  cbn [fst snd] in H1, H2. constructor; [|exact H]. split; [exact H1|].
  cbn [snd]. apply Permutation_app_tail. exact H2.
Qed.

Lemma add_first_perm : forall o o' a, Permutation o o' -> same (add_first o a) (add_first o' a).
Proof.
  intros o o' [|[i x] a] H; [constructor|]. constructor; [|apply same_refl].
  split; [reflexivity|]. cbn [snd]. apply Permutation_app_head. exact H.
Qed.

Lemma add_first_app : forall o o' a, add_first o' (add_first o a) = add_first (o ++ o') a.
Proof. intros o o' [|[i x] a]; [reflexivity|]. cbn. rewrite app_assoc. reflexivity. Qed.

Lemma due_perm : forall l acc acc', Permutation acc acc' ->
  same (due acc l) (due acc' l) /\ Permutation (left_over acc l) (left_over acc' l).
Proof.
  induction l as [|e l IH]; intros acc acc' H; [split; [constructor|exact H]|].
  destruct e as [id st r| | | | | |]; cbn [due left_over];
    try (apply IH; apply Permutation_app_tail; exact H).
  split; [|apply Permutation_refl]. constructor; [|apply same_refl]. split; [reflexivity|exact H].
Qed.

Lemma due_add : forall l acc o, existsb is_measure l = true ->
  same (due (acc ++ o) l) (add_first o (due acc l))
  /\ left_over (acc ++ o) l = left_over acc l.
Proof.
  induction l as [|e l IH]; intros acc o H; [discriminate H|].
  destruct e as [id st r| | | | | |]; cbn [existsb is_measure orb] in H; cbn [due left_over].
  1: { split; [apply same_refl|reflexivity]. }
  all: match goal with |- context [gives ?e] => set (g := gives e) end.
  all: assert (Pm : Permutation ((acc ++ o) ++ g) ((acc ++ g) ++ o));
    [rewrite <- !app_assoc; apply Permutation_app_head; apply Permutation_app_comm|].
  all: destruct (IH (acc ++ g) o H) as [I1 I2].
  all: split;
    [eapply same_trans; [apply due_perm; exact Pm|exact I1]|].
  all: clear - H; revert H; generalize ((acc ++ o) ++ g) (acc ++ g); clear.
  all: induction l as [|e l IH]; intros a b H; [discriminate H|].
  all: destruct e; cbn [existsb is_measure orb] in H; cbn [left_over];
    try reflexivity; apply IH; exact H.
Qed.

Lemma applied_insert : forall o l acc,
  applied acc (insert_first o l) = add_first o (applied acc l)
  /\ unapplied acc (insert_first o l) = unapplied acc l.
Proof.
  induction l as [|x l IH]; intros acc; [split; reflexivity|].
  destruct x; cbn [insert_first applied unapplied]; [|apply IH|apply IH].
  split; [|reflexivity]. cbn [add_first]. rewrite app_assoc. reflexivity.
Qed.

Lemma applied_snoc : forall l acc o, applied acc l <> [] ->
  same (applied (acc ++ o) l) (add_first o (applied acc l))
  /\ unapplied (acc ++ o) l = unapplied acc l.
Proof.
  induction l as [|x l IH]; intros acc o H; [contradiction H; reflexivity|].
  destruct x as [id os lf bk|i|k ms]; cbn [applied unapplied] in *.
  - split; [|reflexivity]. cbn [add_first]. constructor; [|apply same_refl].
    split; [reflexivity|]. cbn [snd]. rewrite <- !app_assoc. apply Permutation_app_head.
    apply Permutation_app_comm.
  - destruct (IH (acc ++ [i]) o H) as [I1 I2].
    assert (K : forall l a b, Permutation a b -> same (applied a l) (applied b l)).
    { clear. induction l as [|y l IH]; intros a b P; [constructor|].
      destruct y; cbn [applied]; [|apply IH; apply Permutation_app_tail; exact P|apply IH; exact P].
      constructor; [|apply same_refl]. split; [reflexivity|]. apply Permutation_app_tail. exact P. }
    assert (U : forall l a b, applied a l <> [] -> unapplied a l = unapplied b l).
    { clear. induction l as [|y l IH]; intros a b N; [contradiction N; reflexivity|].
      destruct y; cbn [applied unapplied] in *; [reflexivity|apply IH; exact N|apply IH; exact N]. }
    split.
    + eapply same_trans; [|exact I1]. apply K. rewrite <- !app_assoc.
      apply Permutation_app_head. apply Permutation_app_comm.
    + symmetry. apply U. exact H.
  - apply IH. exact H.
Qed.

Lemma take_instrument_perm : forall l i r,
  take_instrument l = Some (i, r) -> Permutation l (i :: r).
Proof.
  induction l as [|o l IH]; intros i r H; cbn [take_instrument] in H; [discriminate H|].
  destruct (isInstrument o); [injection H as H1 H2; subst; apply Permutation_refl|].
  destruct (take_instrument l) as [[j r']|]; [|discriminate H].
  injection H as H1 H2. subst. eapply Permutation_trans; [apply perm_skip, IH; reflexivity|].
  apply perm_swap.
Qed.

Lemma applied_give : forall o l, applied [] l <> [] ->
  same (applied [] (give o l)) (add_first o (applied [] l))
  /\ unapplied [] (give o l) = unapplied [] l.
Proof.
  intros o l H. unfold give. destruct o as [|x o].
  - split; [|reflexivity]. destruct (applied [] l) as [|[i y] r]; [constructor|].
    cbn [add_first]. rewrite app_nil_r. apply same_refl.
  - destruct (take_instrument (x :: o)) as [[i r]|] eqn:E.
    + destruct (applied_insert r (IInstrument i :: l) []) as [A1 A2]. rewrite A1, A2.
      cbn [applied unapplied app]. destruct (applied_snoc l [] [i] H) as [B1 B2].
      cbn [app] in B1, B2. split; [|exact B2].
      eapply same_trans; [apply same_add_first; exact B1|]. rewrite add_first_app.
      apply add_first_perm. apply Permutation_sym. apply take_instrument_perm. exact E.
    + destruct (applied_insert (x :: o) l []) as [A1 A2]. rewrite A1, A2.
      split; [apply same_refl|reflexivity].
Qed.

Lemma applied_close : forall i en l acc,
  applied acc (close i en l) = applied acc l /\ unapplied acc (close i en l) = unapplied acc l.
Proof.
  intros i en l acc. unfold close. destruct en as [k|]; [|split; reflexivity].
  destruct i; [|split; reflexivity].
  rewrite applied_app, unapplied_app. cbn [applied unapplied]. rewrite app_nil_r.
  split; reflexivity.
Qed.

(** Definitions after the last measure. *)
Fixpoint settled (w : bool) (l : list elem) : bool :=
  match l with
  | [] => negb w
  | Measure _ _ _ :: r => settled false r
  | ScoreDef _ _ _ :: r => settled true r
  | StaffDef _ _ :: r => settled true r
  | _ :: r => settled w r
  end.

Lemma settled_left_over : forall l w acc, settled w l = true -> (w = false -> acc = []) ->
  left_over acc l = [].
Proof.
  induction l as [|e l IH]; intros w acc H K; cbn [settled left_over] in *.
  - apply K. apply negb_true_iff. exact H.
  - destruct e; cbn [gives]; try rewrite app_nil_r; cbn [settled left_over] in *.
    + apply (IH false); [exact H|]. reflexivity.
    + apply (IH true); [exact H|]. discriminate.
    + apply (IH true); [exact H|]. discriminate.
    + apply (IH w); assumption.
    + apply (IH w); assumption.
    + apply (IH w); assumption.
    + apply (IH w); assumption.
Qed.

(** The next thing but for definitions and breaks is a section; [atEnd] if there is none. *)
Fixpoint section_next (atEnd : bool) (l : list elem) : bool :=
  match l with
  | [] => atEnd
  | Section _ _ :: _ => true
  | Measure _ _ _ :: _ => false
  | _ :: r => section_next atEnd r
  end.

(** A section that ends with definitions is followed by a section. *)
Definition followed (atEnd : bool) (e : elem) (r : list elem) : bool :=
  match e with
  | Section _ b => settled false (flat_map flat b) || section_next atEnd r
  | _ => true
  end.

(** Every section has a measure, and if there are definitions after its last measure, a
    section follows in the same parent. *)
Fixpoint tidy_elem (e : elem) : bool :=
  match e with
  | Section _ b =>
      existsb is_measure (flat_map flat b)
        && (fix go (l : list elem) : bool :=
              match l with
              | [] => true
              | x :: r => tidy_elem x && followed false x r && go r
              end) b
  | _ => true
  end.

Fixpoint tidy (atEnd : bool) (l : list elem) : bool :=
  match l with
  | [] => true
  | x :: r => tidy_elem x && followed atEnd x r && tidy atEnd r
  end.

Lemma tidy_section : forall en b,
  tidy_elem (Section en b) = existsb is_measure (flat_map flat b) && tidy false b.
Proof.
  intros en b. cbn [tidy_elem]. f_equal. induction b as [|x b IH]; [reflexivity|].
  cbn [tidy]. rewrite <- IH. reflexivity.
Qed.

Definition read_e := read_elem topN n.
Definition read_es := read_elems topN n.

Definition def_elem (e : elem) : Prop :=
  forall i s r acc,
    (i = false -> is_measure e = false) ->
    tidy_elem e = true -> followed (negb i) e r = true ->
    (pending s = [] \/ section_next (negb i) (e :: r) = true) ->
    Permutation acc (inNext s ++ pending s) ->
    exists new,
      parsed (read_e i e s) = parsed s ++ new
      /\ same (applied [] new) (due acc (flat e))
      /\ unapplied [] new = []
      /\ Permutation (left_over acc (flat e)) (inNext (read_e i e s) ++ pending (read_e i e s))
      /\ (pending (read_e i e s) = [] \/ section_next (negb i) r = true).

Definition def_elems (l : list elem) : Prop :=
  forall i s acc,
    (i = false -> forallb (fun e => negb (is_measure e)) l = true) ->
    tidy (negb i) l = true ->
    (pending s = [] \/ section_next (negb i) l = true) ->
    Permutation acc (inNext s ++ pending s) ->
    exists new,
      parsed (read_es i l s) = parsed s ++ new
      /\ same (applied [] new) (due acc (flat_map flat l))
      /\ unapplied [] new = []
      /\ Permutation (left_over acc (flat_map flat l))
                     (inNext (read_es i l s) ++ pending (read_es i l s))
      /\ (pending (read_es i l s) = [] \/ negb i = true).

Lemma same_nil : forall a, same [] a -> a = [].
Proof. intros a H. inversion H. reflexivity. Qed.

Lemma due_nonempty : forall l acc, existsb is_measure l = true -> due acc l <> [].
Proof.
  induction l as [|e l IH]; intros acc H; [discriminate H|].
  destruct e; cbn [existsb is_measure orb] in H; cbn [due]; try (apply IH; exact H).
  discriminate.
Qed.

Lemma all_defs : forall l, def_elems l.
Proof.
  apply (elems_both def_elem def_elems).
  - intros i s acc _ _ Hp Ha. exists []. rewrite app_nil_r.
    split; [reflexivity|]. split; [constructor|]. split; [reflexivity|].
    split; [exact Ha|]. exact Hp.
  - intros e l He Hl i s acc Hi Ht Hp Ha.
    cbn [tidy] in Ht. apply andb_true_iff in Ht as [Ht T3]. apply andb_true_iff in Ht as [T1 T2].
    assert (He' : i = false -> is_measure e = false).
    { intros H. apply Hi in H. cbn [forallb] in H. apply andb_true_iff in H as [H _].
      apply negb_true_iff in H. exact H. }
    assert (Hl' : i = false -> forallb (fun e => negb (is_measure e)) l = true).
    { intros H. apply Hi in H. cbn [forallb] in H. apply andb_true_iff in H as [_ H]. exact H. }
    destruct (He i s l acc He' T1 T2 Hp Ha) as [a [A1 [A2 [A3 [A4 A5]]]]].
    destruct (Hl i (read_e i e s) (left_over acc (flat e)) Hl' T3 A5 A4)
      as [b [B1 [B2 [B3 [B4 B5]]]]].
    exists (a ++ b).
    change (read_es i (e :: l) s) with (read_es i l (read_e i e s)).
    cbn [flat_map]. split; [|split; [|split; [|split]]].
    + rewrite B1, A1, app_assoc. reflexivity.
    + rewrite applied_app, due_app, A3. apply same_app; assumption.
    + rewrite unapplied_app, A3. exact B3.
    + rewrite left_over_app. exact B4.
    + exact B5.
  - intros id st r i s rest acc Hi _ _ Hp Ha. destruct i; [|discriminate (Hi eq_refl)].
    destruct Hp as [Hp|Hp]; [|discriminate Hp].
    unfold read_e. cbn [read_elem]. unfold read_measure. cbv zeta. cbn [parsed inNext pending].
    eexists. split; [reflexivity|]. cbn [applied unapplied flat due left_over app].
    rewrite Hp in *. rewrite app_nil_r in Ha.
    split; [|split; [reflexivity|split; [apply Permutation_refl|left; reflexivity]]].
    constructor; [|constructor]. split; [reflexivity|]. apply Permutation_sym. exact Ha.
  - intros t a o i s r acc _ _ _ Hp Ha.
    unfold read_e. cbn [read_elem]. unfold wait_for. cbn [parsed inNext pending].
    exists []. rewrite app_nil_r. cbn [applied unapplied flat due left_over gives].
    split; [reflexivity|]. split; [constructor|]. split; [reflexivity|]. split; [|exact Hp].
    eapply Permutation_trans; [apply Permutation_app_tail; exact Ha|].
    rewrite <- !app_assoc. apply Permutation_app_head. apply Permutation_app_comm.
  - intros k o i s r acc _ _ _ Hp Ha.
    unfold read_e. cbn [read_elem]. unfold wait_for. cbn [parsed inNext pending].
    exists []. rewrite app_nil_r. cbn [applied unapplied flat due left_over].
    split; [reflexivity|]. split; [constructor|]. split; [reflexivity|]. split; [|exact Hp].
    change (gives (StaffDef k o)) with (staffDef_for n k o).
    eapply Permutation_trans; [apply Permutation_app_tail; exact Ha|].
    rewrite <- !app_assoc. apply Permutation_app_head. apply Permutation_app_comm.
  - intros en b Hb i s r acc _ Ht Hf Hp Ha.
    rewrite tidy_section in Ht. apply andb_true_iff in Ht as [Tm Tb].
    set (s0 := mkState [] (pending s) [] (nextBreak s) (nextLeft s) false).
    destruct (Hb true s0 (pending s)) as [new [N1 [N2 [N3 [N4 N5]]]]].
    { discriminate. }
    { exact Tb. }
    { left. reflexivity. }
    { unfold s0. cbn [inNext pending]. rewrite app_nil_r. apply Permutation_refl. }
    change (parsed s0) with (@nil item) in N1. cbn [app] in N1.
    destruct N5 as [N5|N5]; [|discriminate N5]. rewrite N5, app_nil_r in N4.
    unfold read_e. cbn [read_elem]. cbv zeta. fold s0.
    change (fold_left (fun a b0 => read_elem topN n true b0 a) b s0) with (read_es true b s0).
    cbn [parsed inNext pending app]. eexists. split; [reflexivity|].
    destruct (applied_close i en (give (inNext s) (parsed (read_es true b s0))) []) as [C1 C2].
    rewrite C1, C2, N1.
    assert (NE : applied [] new <> []).
    { intros E. rewrite E in N2. apply same_nil in N2. exact (due_nonempty _ _ Tm N2). }
    destruct (applied_give (inNext s) new NE) as [G1 G2].
    change (flat (Section en b)) with (flat_map flat b).
    destruct (due_add (flat_map flat b) (pending s) (inNext s) Tm) as [D1 D2].
    assert (Ha' : Permutation (pending s ++ inNext s) acc).
    { eapply Permutation_trans; [apply Permutation_app_comm|]. apply Permutation_sym. exact Ha. }
    destruct (due_perm (flat_map flat b) _ _ Ha') as [E1 E2].
    split; [|split; [|split]].
    + eapply same_trans; [exact G1|].
      eapply same_trans; [apply same_add_first; exact N2|].
      eapply same_trans; [|exact E1].
      clear - D1. revert D1. generalize (due (pending s ++ inNext s) (flat_map flat b))
        (add_first (inNext s) (due (pending s) (flat_map flat b))).
      induction l as [|x l IH]; intros m H; inversion H as [|? y ? m' [H1 H2] H3]; subst;
        constructor.
      * split; [symmetry; exact H1|apply Permutation_sym; exact H2].
      * apply IH. exact H3.
    + rewrite G2. exact N3.
    + eapply Permutation_trans; [apply Permutation_sym; exact E2|]. rewrite D2. exact N4.
    + unfold followed in Hf. apply orb_true_iff in Hf as [Hf|Hf]; [|right; exact Hf].
      destruct (existsb is_measure (flat_map flat b)) eqn:X; [|discriminate Tm].
      left.
      assert (Z : left_over (pending s) (flat_map flat b) = []).
      { destruct (due_add (flat_map flat b) [] (pending s) X) as [_ Z]. cbn [app] in Z.
        rewrite Z. apply (settled_left_over _ false); [exact Hf|reflexivity]. }
      rewrite Z in N4. apply Permutation_nil. exact N4.
  - intros o i s r acc _ _ _ Hp Ha. exists []. rewrite app_nil_r.
    unfold read_e. cbn [read_elem flat due left_over gives]. rewrite app_nil_r.
    unfold read_pb. destruct (seen s && negb o); cbn [parsed inNext pending];
      (split; [reflexivity|]; split; [constructor|]; split; [reflexivity|]; split;
       [exact Ha|exact Hp]).
  - intros o i s r acc _ _ _ Hp Ha. exists []. rewrite app_nil_r.
    unfold read_e. cbn [read_elem flat due left_over gives]. rewrite app_nil_r.
    unfold read_sb. destruct (seen s && negb o); cbn [parsed inNext pending];
      (split; [reflexivity|]; split; [constructor|]; split; [reflexivity|]; split;
       [exact Ha|exact Hp]).
  - intros i s r acc _ _ _ Hp Ha. exists []. rewrite app_nil_r.
    unfold read_e. cbn [read_elem flat due left_over gives]. rewrite app_nil_r.
    split; [reflexivity|]; split; [constructor|]; split; [reflexivity|]; split;
      [exact Ha|exact Hp].
Qed.
End Part.

(** C147: if every section has a measure, and a section with definitions after its last
    measure is followed by another section of the same parent, then in every part each measure
    begins with exactly what was defined for the part since the measure before. *)
Theorem C147_definitions_partial : forall topN n l,
  forallb (fun e => negb (is_measure e)) l = true ->
  tidy true l = true ->
  same (applied [] (read_score topN n l)) (due topN n [] (flat_map flat l)).
Proof.
  intros topN n l H T. unfold read_score.
  destruct (all_defs topN n l false start [] (fun _ => H) T) as [new [N1 [N2 _]]].
  - left. reflexivity.
  - apply perm_nil.
  - unfold read_es in N1. rewrite N1. exact N2.
Qed.
Print Assumptions C147_definitions_partial.

Definition aClef (k : nat) : obj := mkObj (S_ "TrebleClef") false k.
Definition aKey (k : nat) : obj := mkObj (S_ "Key") false k.
Definition aKeySig (k : nat) : obj := mkObj (S_ "KeySignature") false k.
Definition aMeter (k : nat) : obj := mkObj (S_ "TimeSignature") false k.
Definition anInstr (k : nat) : obj := mkObj (S_ "Piano") true k.
Definition M (k : nat) : elem := Measure k [sA; sB] false.

Example C147_nonvacuous :
  let l := [ScoreDef [] [aKeySig 1; aMeter 2] [(sB, [anInstr 3; aClef 4; aKey 5])];
            Section None
              [StaffDef (Some sB) [aMeter 6];
               M 1; M 2;
               StaffDef (Some sA) [aClef 7];
               Section None [M 3; StaffDef (Some sB) [aClef 8]];
               Pb false;
               Section None [ScoreDef [] [aKeySig 9] []; M 4]]] in
  forallb (fun e => negb (is_measure e)) l = true
  /\ tidy true l = true
  /\ applied [] (read_score sA sB l)
     = [(1, [anInstr 3; aMeter 6; aClef 4; aKey 5; aMeter 2]); (2, []); (3, []);
        (4, [aClef 8; aKeySig 9])].
Proof. split; [|split]; vm_compute; reflexivity. Qed.

(** A key signature before a section without measures is in no measure. *)
Theorem C147_empty_section_refuted : exists l o,
  due sA sA [] (flat_map flat l) = [(1, []); (2, [o])]
  /\ applied [] (read_score sA sA l) = [(1, []); (2, [])].
Proof.
  exists [Section None [M 1; ScoreDef [] [aKeySig 1] []; Section None [Other]; M 2]], (aKeySig 1).
  split; vm_compute; reflexivity.
Qed.
Print Assumptions C147_empty_section_refuted.

(** A key signature at the end of a section, before a measure of the parent, is in no
    measure. *)
Theorem C147_end_of_section_refuted : exists l o,
  due sA sA [] (flat_map flat l) = [(1, []); (2, [o])]
  /\ applied [] (read_score sA sA l) = [(1, []); (2, [])].
Proof.
  exists [Section None [Section None [M 1; ScoreDef [] [aKeySig 1] []]; M 2]], (aKeySig 1).
  split; vm_compute; reflexivity.
Qed.
Print Assumptions C147_end_of_section_refuted.

(** It comes too late, if another section follows the measure. *)
Theorem C147_late_refuted : exists l o,
  due sA sA [] (flat_map flat l) = [(1, []); (2, [o]); (3, [])]
  /\ applied [] (read_score sA sA l) = [(1, []); (2, []); (3, [o])].
Proof.
  exists [Section None [Section None [M 1; ScoreDef [] [aKeySig 1] []]; M 2;
                        Section None [M 3]]], (aKeySig 1).
  split; vm_compute; reflexivity.
Qed.
Print Assumptions C147_late_refuted.
