(** Lemmas about linked ties and the ties of notes. *)
From Coq Require Import Lia Sorted QArith.
From Verif Require Import SlurModel SlurProofs.
Local Close Scope Q_scope.

(** * The ties of notes *)
Definition is_start (s : str) : bool := char_in "[" s || char_in "_" s.
Definition is_stop (s : str) : bool := char_in "]" s.
(** What the marks of a note say. *)
Definition marked_tie (s : str) : option ttype :=
  if char_in "_" s || (char_in "[" s && char_in "]" s) then Some Tcontinue
  else if char_in "[" s then Some Tstart
  else if char_in "]" s then Some Tstop
  else None.

Section Notes.
Variable notes : list tnote.
Hypothesis One : forall e, In e notes -> is_start (n_text e) && is_stop (n_text e) = false.

Record tinv (n : nat) (st : ost) : Prop := mkTI {
  ti_open : forall i e, In (i, e) (o_ties st) -> i < n /\ nth_error notes i = Some e /\ is_start (n_text e) = true;
  ti_start : forall i e, i < n -> nth_error notes i = Some e -> is_start (n_text e) = true ->
               In i (map fst (o_ties st)) \/ o_tie st i = Some (start_type (n_text e));
  ti_stop : forall i e, i < n -> nth_error notes i = Some e -> is_start (n_text e) = false ->
               o_tie st i = if is_stop (n_text e) then Some Tstop else None;
  ti_later : forall i, n <= i -> o_tie st i = None }.

Lemma set_tie_same f n t : set_tie f n t n = Some t.
Proof. unfold set_tie. now rewrite Nat.eqb_refl. Qed.
Lemma set_tie_other f n t x : x <> n -> set_tie f n t x = f x.
Proof. intros N. unfold set_tie. destruct (Nat.eqb_spec x n); [contradiction|reflexivity]. Qed.

Lemma remove_tie_in i ties x : In x (remove_tie i ties) -> In x ties.
Proof.
  induction ties as [|t ties IH]; cbn; [tauto|]. destruct (Nat.eqb (fst t) i); cbn; [auto|]. intros [H|H]; auto.
Qed.
Lemma remove_tie_keep i ties x : In x (map fst ties) -> x <> i -> In x (map fst (remove_tie i ties)).
Proof.
  induction ties as [|t ties IH]; cbn; [tauto|]. intros [<-|H] N.
  - destruct (Nat.eqb_spec (fst t) i); [contradiction|]. now left.
  - destruct (Nat.eqb (fst t) i); cbn; auto.
Qed.

Lemma find_tie_in ties e t : find_tie ties e = Some t -> In t ties /\ tie_fits e (snd t) = true.
Proof.
  unfold find_tie. destruct (find _ ties) as [t'|] eqn:E.
  - intros H. injection H as <-. apply find_some in E as [A B]. apply andb_true_iff in B as [_ B]. auto.
  - intros H. apply find_some in H as [A B]. auto.
Qed.

Lemma tinv_start n st e : tinv n st -> nth_error notes n = Some e -> is_start (n_text e) = true ->
  let st1 := tieStart st n e in
  (forall i e', In (i, e') (o_ties st1) -> i < S n /\ nth_error notes i = Some e' /\ is_start (n_text e') = true) /\
  (forall i e', i < S n -> nth_error notes i = Some e' -> is_start (n_text e') = true ->
     In i (map fst (o_ties st1)) \/ o_tie st1 i = Some (start_type (n_text e'))) /\
  (forall i e', i < S n -> nth_error notes i = Some e' -> is_start (n_text e') = false ->
     o_tie st1 i = if is_stop (n_text e') then Some Tstop else None) /\
  (forall i, S n <= i -> o_tie st1 i = None).
Proof.
  intros I He Hs st1. unfold st1, tieStart. cbn [o_ties o_tie].
  assert (Oth : forall i, i <> n -> (if n_linkedEnd e then set_tie (o_tie st) n (start_type (n_text e)) else o_tie st) i = o_tie st i).
  { intros i N. destruct (n_linkedEnd e); [now apply set_tie_other|reflexivity]. }
  split; [|split; [|split]].
  - intros i e' H. apply in_app_iff in H as [H|[H|[]]].
    + destruct (ti_open n st I i e' H) as [A B]. split; [lia|assumption].
    + injection H as <- <-. split; [lia|auto].
  - intros i e' L E S'. rewrite map_app, in_app_iff. cbn.
    destruct (Nat.eq_dec i n) as [->|N]; [left; right; now left|].
    rewrite Oth by assumption. destruct (ti_start n st I i e' ltac:(lia) E S'); auto.
  - intros i e' L E S'. assert (i <> n) by congruence. rewrite Oth by assumption.
    apply (ti_stop n st I); [lia|assumption|assumption].
  - intros i L. rewrite Oth by lia. apply (ti_later n st I). lia.
Qed.

Lemma tinv_step n st e : tinv n st -> nth_error notes n = Some e -> tinv (S n) (note_ties st (n, e)).
Proof.
  intros I He. unfold note_ties.
  assert (Oe : is_start (n_text e) && is_stop (n_text e) = false) by (apply One; eapply nth_error_In; exact He).
  fold (is_start (n_text e)). destruct (is_start (n_text e)) eqn:Hs.
  - (* a start, maybe also an end *)
    cbn in Oe. unfold is_stop in Oe.
    destruct (tinv_start n st e I He Hs) as [A [B [C D]]].
    rewrite Oe. cbn [orb]. destruct (char_in "_" (n_text e)) eqn:Hu; [|constructor; assumption].
    unfold tieEnd. rewrite Oe, Hu. destruct (n_linkedStart e); [constructor; assumption|].
    destruct (find_tie (o_ties (tieStart st n e)) e) as [[i t]|] eqn:Ef; [|constructor; assumption].
    apply find_tie_in in Ef as [Ef _]. destruct (A i t Ef) as [Li [Ei Si]].
    constructor; cbn [o_ties o_tie].
    + intros x e' H. apply A. now apply remove_tie_in in H.
    + intros x e' L E S'. destruct (Nat.eq_dec x i) as [->|N].
      * right. rewrite set_tie_same. congruence.
      * rewrite set_tie_other by assumption. destruct (B x e' L E S') as [H|H]; [left|now right]. now apply remove_tie_keep.
    + intros x e' L E S'. assert (x <> i) by congruence. rewrite set_tie_other by assumption. now apply C.
    + intros x L. rewrite set_tie_other by lia. now apply D.
  - (* no start *)
    assert (Hu : char_in "_" (n_text e) = false) by (unfold is_start in Hs; now apply orb_false_iff in Hs).
    rewrite Hu, orb_false_r. unfold is_stop in *.
    assert (Old : forall f, (forall i, i < n -> f i = o_tie st i) -> f n = (if char_in "]" (n_text e) then Some Tstop else None) ->
              (forall i, n < i -> f i = None) -> forall ps, tinv (S n) (mkO (o_ties st) f ps)).
    { intros f F1 F2 F3 ps. constructor; cbn [o_ties o_tie].
      - intros i e' H. destruct (ti_open n st I i e' H) as [A B]. split; [lia|assumption].
      - intros i e' L E S'. assert (Li : i < n) by (destruct (Nat.eq_dec i n); [subst; congruence|lia]).
        rewrite F1 by assumption. now apply (ti_start n st I).
      - intros i e' L E S'. destruct (Nat.eq_dec i n) as [->|N].
        + rewrite F2. assert (e' = e) by congruence. subst e'. reflexivity.
        + rewrite F1 by lia. apply (ti_stop n st I); [lia|assumption|assumption].
      - intros i L. apply F3. lia. }
    destruct (char_in "]" (n_text e)) eqn:Hb.
    + unfold tieEnd. rewrite Hb, Hu.
      assert (Stop : tinv (S n) (mkO (o_ties st) (set_tie (o_tie st) n Tstop) (o_pairs st))).
      { apply Old; [intros i L; apply set_tie_other; lia|apply set_tie_same|].
        intros i L. rewrite set_tie_other by lia. apply (ti_later n st I). lia. }
      destruct (n_linkedStart e); [exact Stop|].
      destruct (find_tie (o_ties st) e) as [[i t]|] eqn:Ef; [|exact Stop].
      apply find_tie_in in Ef as [Ef _]. destruct (ti_open n st I i t Ef) as [Li [Ei Si]].
      constructor; cbn [o_ties o_tie].
      * intros x e' H. apply remove_tie_in in H. destruct (ti_open n st I x e' H) as [A B]. split; [lia|assumption].
      * intros x e' L E S'. assert (Nx : x <> n) by congruence. rewrite set_tie_other by assumption.
        destruct (Nat.eq_dec x i) as [->|N]; [right; rewrite set_tie_same; congruence|].
        rewrite set_tie_other by assumption.
        destruct (ti_start n st I x e' ltac:(lia) E S') as [H|H]; [left; now apply remove_tie_keep|now right].
      * intros x e' L E S'. destruct (Nat.eq_dec x n) as [->|Nx].
        -- rewrite set_tie_same. assert (e' = e) by congruence. subst e'. unfold is_stop. now rewrite Hb.
        -- assert (x <> i) by congruence. rewrite !set_tie_other by assumption.
           apply (ti_stop n st I); [lia|assumption|assumption].
      * intros x L. rewrite !set_tie_other by lia. apply (ti_later n st I). lia.
    + destruct st as [ties f ps]. apply (Old f); [reflexivity| |].
      * apply (ti_later n _ I n). lia.
      * intros i L. apply (ti_later n _ I). lia.
Qed.

Lemma enumerate_snoc {A} (l : list A) x n : enumerate_from n (l ++ [x]) = enumerate_from n l ++ [(n + length l, x)].
Proof.
  revert n; induction l as [|y l IH]; intros n; cbn; [now rewrite Nat.add_0_r|]. rewrite IH, Nat.add_succ_r. reflexivity.
Qed.

Lemma tinv_run n : n <= length notes ->
  tinv n (fold_left note_ties (enumerate_from 0 (firstn n notes)) (mkO [] (fun _ => None) [])).
Proof.
  induction n as [|n IH]; intros L.
  - cbn. constructor; cbn; intros; try tauto; try lia; reflexivity.
  - destruct (nth_error notes n) as [e|] eqn:E; [|apply nth_error_None in E; lia].
    assert (Ef : firstn (S n) notes = firstn n notes ++ [e]).
    { clear -E. revert n E. induction notes as [|x l IH]; intros n E; [destruct n; discriminate|].
      destruct n as [|n]; cbn in E; [injection E as ->; reflexivity|]. cbn [firstn app]. f_equal. now apply IH. }
    rewrite Ef, enumerate_snoc, fold_left_app. cbn [fold_left Nat.add].
    rewrite firstn_length, Nat.min_l by lia. apply tinv_step; [apply IH; lia|assumption].
Qed.

Lemma hanging_fold ts : forall f, (forall i e, In (i, e) ts -> nth_error notes i = Some e) ->
  let f' := fold_left (fun f t => set_tie f (fst t) (start_type (n_text (snd t)))) ts f in
  (forall i, ~ In i (map fst ts) -> f' i = f i) /\
  (forall i e, In i (map fst ts) -> nth_error notes i = Some e -> f' i = Some (start_type (n_text e))).
Proof.
  induction ts as [|[i0 e0] ts IH]; intros f H; cbn; [split; [reflexivity|tauto]|].
  destruct (IH (set_tie f i0 (start_type (n_text e0)))) as [A B]; [intros i e Hi; apply H; now right|].
  split.
  - intros i N. rewrite A by tauto. apply set_tie_other. intros ->. apply N. now left.
  - intros i e Hi E. destruct (in_dec Nat.eq_dec i (map fst ts)) as [C|C]; [now apply B|].
    rewrite A by assumption. destruct Hi as [->|Hi]; [|contradiction].
    rewrite set_tie_same. specialize (H i e0 (or_introl eq_refl)). congruence.
Qed.

Lemma note_tie i : o_tie (staffTies notes) i =
  match nth_error notes i with Some e => marked_tie (n_text e) | None => None end.
Proof.
  pose proof (tinv_run (length notes) (le_n _)) as I. rewrite firstn_all in I.
  unfold staffTies, hanging_ties. cbn [o_tie].
  set (st := fold_left note_ties (enumerate_from 0 notes) (mkO [] (fun _ => None) [])) in *.
  destruct (hanging_fold (o_ties st) (o_tie st)) as [A B].
  { intros x e H. now apply (ti_open _ _ I) in H. }
  destruct (nth_error notes i) as [e|] eqn:E.
  - assert (Li : i < length notes) by (apply nth_error_Some; congruence).
    assert (Oe : is_start (n_text e) && is_stop (n_text e) = false) by (apply One; eapply nth_error_In; exact E).
    destruct (is_start (n_text e)) eqn:Hs.
    + assert (Em : Some (start_type (n_text e)) = marked_tie (n_text e)).
      { cbn in Oe. unfold is_start, is_stop, start_type, marked_tie in *. rewrite Oe, andb_false_r, orb_false_r.
        destruct (char_in "_" (n_text e)); [reflexivity|]. rewrite orb_false_r in Hs. now rewrite Hs. }
      rewrite <- Em. destruct (in_dec Nat.eq_dec i (map fst (o_ties st))) as [C|C]; [now apply B|].
      rewrite A by assumption. destruct (ti_start _ _ I i e Li E Hs); [contradiction|assumption].
    + rewrite A.
      * rewrite (ti_stop _ _ I i e Li E Hs). unfold is_start, is_stop, marked_tie in *.
        apply orb_false_iff in Hs as [-> ->]. reflexivity.
      * intros C. apply in_map_iff in C as [[x t] [Ex C]]. cbn in Ex. subst x.
        apply (ti_open _ _ I) in C as [_ [E' S']]. congruence.
  - apply nth_error_None in E. rewrite A; [now apply (ti_later _ _ I)|].
    intros C. apply in_map_iff in C as [[x t] [Ex C]]. cbn in Ex. subst x. apply (ti_open _ _ I) in C. lia.
Qed.
End Notes.

(** * Linked ties *)
Section Linked.
Variable link : str.
Definition starts (s : sub) : bool := contains (link ++ S_ "[") (u_text s).
Definition stops (s : sub) : bool := contains (link ++ S_ "]") (u_text s).
Definition continues (s : sub) : bool := contains (link ++ S_ "_") (u_text s).
Definition tied (s : sub) : bool := starts s || stops s || continues s.
Definition pitch40 (s : sub) : Z := kernToBase40 (u_text s).

Variable subs : list sub.
(** Each note carries at most one tie mark, and its pitch is in range. *)
Hypothesis OneMark : forall s, In s subs ->
  (starts s && stops s = false) /\ (starts s && continues s = false) /\ (stops s && continues s = false).
Hypothesis Range : forall s, In s subs -> tied s = true -> (0 <= pitch40 s < 400)%Z.

Definition sat (i : nat) (s : sub) : Prop := nth_error subs i = Some s.
(** [i] and [j] are neighbouring tie marks of one pitch, of which the first opens a tie
    and the second ends one. *)
Definition linked (i j : nat) : Prop := exists a b, sat i a /\ sat j b /\ i < j /\ pitch40 a = pitch40 b /\
  (starts a || continues a = true) /\ (stops b || continues b = true) /\
  forall k s, i < k < j -> sat k s -> tied s = true -> pitch40 s <> pitch40 a.

Definition ds : sub := mkSub (0, 0) 0 [] false.
Definition sub_at (i : nat) : sub := nth i subs ds.

(** The entry for a pitch: its last mark, if that opens a tie. *)
Definition last_opens (n : nat) (p : Z) (i : nat) : Prop := exists a, sat i a /\ i < n /\ pitch40 a = p /\
  (starts a || continues a = true) /\ forall k s, i < k < n -> sat k s -> tied s = true -> pitch40 s <> p.

Definition linv (n : nat) (st : tst) : Prop :=
  (forall p, (exists i, t_db st p = Some (sub_at i) /\ last_opens n p i) \/
             (t_db st p = None /\ forall i, ~ last_opens n p i)) /\
  exists P, t_pairs st = map (fun q => (sub_at (fst q), sub_at (snd q))) P /\
    StronglySorted lt (map snd P) /\ (forall i j, In (i, j) P <-> linked i j /\ j < n).

Lemma sat_sub_at i s : sat i s -> sub_at i = s.
Proof. intros H. apply nth_error_nth. exact H. Qed.

Lemma last_opens_unique n p i i' : last_opens n p i -> last_opens n p i' -> i = i'.
Proof.
  intros [a [A1 [A2 [A3 [A4 A5]]]]] [b [B1 [B2 [B3 [B4 B5]]]]].
  assert (T : forall s, starts s || continues s = true -> tied s = true).
  { intros s H. unfold tied. apply orb_true_iff in H as [-> | ->]; rewrite ?orb_true_r; reflexivity. }
  destruct (Nat.lt_trichotomy i i') as [L|[L|L]]; [|assumption|]; exfalso.
  - apply (A5 i' b); auto.
  - apply (B5 i a); auto.
Qed.

Lemma last_opens_skip n p i : (forall s, sat n s -> tied s = true -> pitch40 s <> p) ->
  last_opens (S n) p i <-> last_opens n p i.
Proof.
  intros H. assert (T : forall s, starts s || continues s = true -> tied s = true).
  { intros s H'. unfold tied. apply orb_true_iff in H' as [-> | ->]; rewrite ?orb_true_r; reflexivity. }
  split; intros [a [A1 [A2 [A3 [A4 A5]]]]]; exists a; repeat split; auto.
  - destruct (Nat.eq_dec i n) as [->|]; [|lia]. exfalso. apply (H a); auto.
  - intros k s L. apply A5. lia.
  - intros k s L S' Tk. destruct (Nat.eq_dec k n) as [->|]; [now apply H|]. apply (A5 k); auto. lia.
Qed.

Lemma linked_at n s i : sat n s -> stops s || continues s = true -> linked i n <-> last_opens n (pitch40 s) i.
Proof.
  intros Hs St. split.
  - intros [a [b [A [B [L [P [Sa [Sb No]]]]]]]]. unfold sat in *. rewrite Hs in B. injection B as <-.
    exists a. repeat split; auto. intros k s' Lk Sk Tk. rewrite <- P. apply (No k); auto.
  - intros [a [A [L [P [Sa No]]]]]. exists a, s. repeat split; auto. intros k s' Lk Sk Tk. rewrite P. apply (No k); auto.
Qed.
Lemma linked_not n s i : sat n s -> stops s || continues s = false -> ~ linked i n.
Proof.
  intros Hs St [a [b [A [B [L [P [Sa [Sb No]]]]]]]]. unfold sat in *. rewrite Hs in B. injection B as <-. congruence.
Qed.

Lemma db_index_range s : (0 <= s < 400)%Z -> db_index s = Some s.
Proof. intros [A B]. unfold db_index. apply Z.leb_le in A. apply Z.ltb_lt in B. now rewrite A, B. Qed.

Lemma db_set_same f k v : db_set f k v k = v.
Proof. unfold db_set. now rewrite Z.eqb_refl. Qed.
Lemma db_set_other f k v x : x <> k -> db_set f k v x = f x.
Proof. intros N. unfold db_set. destruct (Z.eqb_spec x k); [contradiction|reflexivity]. Qed.

Lemma linv_step n st s : linv n st -> sat n s -> exists st', tie_sub link (Some st) s = Some st' /\ linv (S n) st'.
Proof.
  intros [D [P [Ep [So HP]]]] Hs.
  assert (Hin : In s subs) by (eapply nth_error_In; exact Hs).
  destruct (OneMark s Hin) as [M1 [M2 M3]].
  assert (Spl : forall i j, linked i j /\ j < S n <-> (linked i j /\ j < n) \/ (j = n /\ linked i n)).
  { intros i j. split; [|intros [[A B]|[-> B]]; split; auto; lia]. intros [A B].
    destruct (Nat.eq_dec j n); [right; subst; auto|left; split; auto; lia]. }
  assert (Pn : forall i j, In (i, j) P -> j < n) by (intros i j H; now apply HP in H).
  assert (Snoc : forall i, last_opens n (pitch40 s) i -> stops s || continues s = true ->
            exists P', t_pairs st ++ [(sub_at i, s)] = map (fun q => (sub_at (fst q), sub_at (snd q))) P' /\
              StronglySorted lt (map snd P') /\ (forall i j, In (i, j) P' <-> linked i j /\ j < S n)).
  { intros i0 L0 St. exists (P ++ [(i0, n)]). rewrite !map_app, Ep. split; [|split].
    - cbn. now rewrite (sat_sub_at n s Hs).
    - cbn. apply sorted_snoc; [assumption|]. intros y Hy. apply in_map_iff in Hy as [[a b] [<- Hy]]. now apply Pn in Hy.
    - intros i j. rewrite in_app_iff, Spl, HP. cbn. split.
      + intros [H|[H|[]]]; [now left|]. injection H as <- <-. right. split; [reflexivity|]. now apply (linked_at n s).
      + intros [H|[-> H]]; [now left|]. right. left. apply (linked_at n s) in H; [|assumption|assumption].
        f_equal. eapply last_opens_unique; eassumption. }
  assert (Same : (forall i, ~ linked i n) -> exists P', t_pairs st = map (fun q => (sub_at (fst q), sub_at (snd q))) P' /\
              StronglySorted lt (map snd P') /\ (forall i j, In (i, j) P' <-> linked i j /\ j < S n)).
  { intros No. exists P. split; [assumption|]. split; [assumption|]. intros i j. rewrite Spl, HP.
    split; [tauto|]. intros [H|[-> H]]; [assumption|]. exfalso. eapply No; exact H. }
  unfold tie_sub.
  change (contains (link ++ S_ "[") (u_text s)) with (starts s).
  change (contains (link ++ S_ "]") (u_text s)) with (stops s).
  change (contains (link ++ S_ "_") (u_text s)) with (continues s).
  change (starts s || stops s || continues s) with (tied s). change (kernToBase40 (u_text s)) with (pitch40 s).
  destruct (tied s) eqn:T; cbn [negb].
  - rewrite (db_index_range _ (Range s Hin T)).
    assert (OthD : forall p f, p <> pitch40 s -> f p = t_db st p ->
              (exists i, f p = Some (sub_at i) /\ last_opens (S n) p i) \/ (f p = None /\ forall i, ~ last_opens (S n) p i)).
    { intros p f N Ef. rewrite Ef.
      assert (Sk : forall i, last_opens (S n) p i <-> last_opens n p i).
      { intros i. apply last_opens_skip. intros s' S' _. unfold sat in *. rewrite Hs in S'. injection S' as <-. congruence. }
      destruct (D p) as [[i [A B]]|[A B]]; [left; exists i; split; [assumption|now apply Sk]|right].
      split; [assumption|]. intros i C. apply Sk in C. now apply (B i). }
    assert (SelfOpen : starts s || continues s = true -> last_opens (S n) (pitch40 s) n).
    { intros H. exists s. split; [assumption|]. split; [lia|]. split; [reflexivity|]. split; [exact H|]. intros k s' L. lia. }
    assert (SelfClosed : starts s || continues s = false -> forall i, ~ last_opens (S n) (pitch40 s) i).
    { intros H i [a [A1 [A2 [A3 [A4 A5]]]]]. destruct (Nat.eq_dec i n) as [->|].
      - unfold sat in *. congruence.
      - apply (A5 n s); auto. lia. }
    destruct (starts s) eqn:S1.
    + (* start *)
      cbn in M1, M2. rewrite M1, M2. eexists. split; [reflexivity|]. split; cbn [t_db t_pairs].
      * intros p. destruct (Z.eq_dec p (pitch40 s)) as [->|N].
        -- left. exists n. rewrite db_set_same, (sat_sub_at n s Hs). split; [reflexivity|]. apply SelfOpen. reflexivity.
        -- apply (OthD p (db_set (t_db st) (pitch40 s) (Some s)) N). now apply db_set_other.
      * apply Same. intros i. apply (linked_not n s); [assumption|]. now rewrite M1, M2.
    + destruct (stops s) eqn:S2.
      * (* end *)
        cbn in M3. rewrite M3.
        destruct (D (pitch40 s)) as [[i [A B]]|[A B]]; rewrite A; (eexists; split; [reflexivity|]); split; cbn [t_db t_pairs].
        -- intros p. destruct (Z.eq_dec p (pitch40 s)) as [->|N].
           ++ right. rewrite db_set_same. split; [reflexivity|]. apply SelfClosed. now rewrite M3.
           ++ apply (OthD p (db_set (t_db st) (pitch40 s) None) N). now apply db_set_other.
        -- apply Snoc; [assumption|reflexivity].
        -- intros p. destruct (Z.eq_dec p (pitch40 s)) as [->|N].
           ++ right. split; [assumption|]. apply SelfClosed. now rewrite M3.
           ++ now apply (OthD p (t_db st) N).
        -- apply Same. intros i C. apply (linked_at n s) in C; [|assumption|now rewrite S2]. now apply (B i).
      * (* middle *)
        assert (S3 : continues s = true) by (unfold tied in T; rewrite S1, S2 in T; exact T). rewrite S3.
        eexists. split; [reflexivity|]. split; cbn [t_db t_pairs].
        -- intros p. destruct (Z.eq_dec p (pitch40 s)) as [->|N].
           ++ left. exists n. rewrite db_set_same, (sat_sub_at n s Hs). split; [reflexivity|]. apply SelfOpen. now rewrite S3.
           ++ apply (OthD p (db_set (t_db st) (pitch40 s) (Some s)) N). now apply db_set_other.
        -- destruct (D (pitch40 s)) as [[i [A B]]|[A B]]; rewrite A.
           ++ apply Snoc; [assumption|]. now rewrite S3.
           ++ apply Same. intros i C. apply (linked_at n s) in C; [|assumption|now rewrite S3, orb_true_r]. now apply (B i).
  - exists st. split; [reflexivity|]. split.
    + intros p. assert (Sk : forall i, last_opens (S n) p i <-> last_opens n p i).
      { intros i. apply last_opens_skip. intros s' S' T'. unfold sat in *. rewrite Hs in S'. injection S' as <-. congruence. }
      destruct (D p) as [[i [A B]]|[A B]]; [left; exists i; split; [assumption|now apply Sk]|right].
      split; [assumption|]. intros i C. apply Sk in C. now apply (B i).
    + apply Same. intros i. apply (linked_not n s); [assumption|]. unfold tied in T.
      apply orb_false_iff in T as [T ->]. apply orb_false_iff in T as [_ ->]. reflexivity.
Qed.

Lemma linked_ties : link <> [] -> exists P,
  linkedTies link subs = Some (map (fun q => (sub_at (fst q), sub_at (snd q))) P) /\
  StronglySorted lt (map snd P) /\ (forall i j, In (i, j) P <-> linked i j).
Proof.
  intros Nl.
  assert (Run : forall n, n <= length subs -> exists st,
            fold_left (tie_sub link) (firstn n subs) (Some (mkT (fun _ => None) [])) = Some st /\ linv n st).
  { induction n as [|n IH]; intros L.
    - eexists. split; [reflexivity|]. split; cbn.
      + intros p. right. split; [reflexivity|]. intros i [a [_ [C _]]]. lia.
      + exists []. split; [reflexivity|]. split; [constructor|]. cbn. intros i j. split; [tauto|lia].
    - destruct (nth_error subs n) as [s|] eqn:E; [|apply nth_error_None in E; lia].
      assert (Ef : firstn (S n) subs = firstn n subs ++ [s]).
      { clear -E. revert n E. induction subs as [|x l IHl]; intros n E; [destruct n; discriminate|].
        destruct n as [|n]; cbn in E; [injection E as ->; reflexivity|]. cbn [firstn app]. f_equal. now apply IHl. }
      destruct (IH ltac:(lia)) as [st [E1 I]]. destruct (linv_step n st s I E) as [st' [E2 I']].
      exists st'. split; [|assumption]. rewrite Ef, fold_left_app, E1. exact E2. }
  destruct (Run (length subs) (le_n _)) as [st [E [_ [P [Ep [So HP]]]]]]. rewrite firstn_all in E.
  exists P. split; [|split; [assumption|]].
  - unfold linkedTies. destruct link; [contradiction|]. rewrite E. now rewrite Ep.
  - intros i j. rewrite HP. split; [tauto|]. intros H. split; [assumption|].
    destruct H as [a [b [_ [B _]]]]. apply nth_error_Some. unfold sat in B. congruence.
Qed.
End Linked.

(** * What is recorded *)
Definition same_tag (a b : sub) : bool := id_eqb (u_tok a) (u_tok b) && Nat.eqb (tie_tag a) (tie_tag b).

Lemma put_tag_same t s v a : same_tag a s = true -> put_tag t s v (u_tok a) (tie_tag a) = Some v.
Proof. unfold same_tag, put_tag. now intros ->. Qed.
Lemma put_tag_other t s v a : same_tag a s = false -> put_tag t s v (u_tok a) (tie_tag a) = t (u_tok a) (tie_tag a).
Proof. unfold same_tag, put_tag. now intros ->. Qed.

Lemma recorded_ties ps : forall t x,
  let r := fold_left linkTieEndpoints ps t in
  (fst r (u_tok x) (tie_tag x) =
    match find (fun p => same_tag x (fst p)) (rev ps) with
    | Some p => Some (u_tok (snd p), S (u_idx (snd p)))
    | None => fst t (u_tok x) (tie_tag x)
    end) /\
  (snd r (u_tok x) (tie_tag x) =
    match find (fun p => same_tag x (snd p)) (rev ps) with
    | Some p => Some (u_tok (fst p), S (u_idx (fst p)))
    | None => snd t (u_tok x) (tie_tag x)
    end).
Proof.
  induction ps as [|[a b] ps IH] using rev_ind; intros t x; [cbn; auto|].
  rewrite fold_left_app, rev_app_distr. cbn [fold_left rev app find fst snd linkTieEndpoints].
  destruct (IH t x) as [A B]. split.
  - destruct (same_tag x a) eqn:E; [now apply put_tag_same|]. rewrite put_tag_other by assumption. exact A.
  - destruct (same_tag x b) eqn:E; [now apply put_tag_same|]. rewrite put_tag_other by assumption. exact B.
Qed.

Lemma find_unique {A} (f : A -> bool) l x : In x l -> f x = true -> (forall y, In y l -> f y = true -> y = x) ->
  find f l = Some x.
Proof.
  intros H F U. destruct (find f l) as [y|] eqn:E.
  - apply find_some in E as [A1 B]. now rewrite (U y A1 B).
  - exfalso. pose proof (find_none _ _ E x H). congruence.
Qed.
