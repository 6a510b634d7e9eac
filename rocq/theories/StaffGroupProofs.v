From Verif Require Import PyStr StaffGroupModel.
From Coq Require Import Permutation Sorted.

Lemma insert_by_perm {A} (key : A -> nat) x l : Permutation (insert_by key x l) (x :: l).
Proof.
  induction l as [|y l IH]; [reflexivity|]. cbn [insert_by]. destruct (key x <=? key y); [reflexivity|].
  rewrite IH. apply perm_swap.
Qed.
Lemma sort_by_perm {A} (key : A -> nat) l : Permutation (sort_by key l) l.
Proof. induction l as [|x l IH]; [reflexivity|]. cbn [sort_by]. rewrite insert_by_perm, IH. reflexivity. Qed.
Lemma insert_by_sorted {A} (key : A -> nat) x l :
  StronglySorted (fun a b => key a <= key b) l -> StronglySorted (fun a b => key a <= key b) (insert_by key x l).
Proof.
  induction 1 as [|y l S IH F]; cbn [insert_by]; [repeat constructor|].
  destruct (Nat.leb_spec (key x) (key y)).
  - constructor; [constructor; assumption|]. constructor; [assumption|]. eapply Forall_impl; [|exact F]. cbn. intros; lia.
  - constructor; [exact IH|]. rewrite insert_by_perm. constructor; [lia|exact F].
Qed.
Lemma sort_by_sorted {A} (key : A -> nat) (l : list A) : StronglySorted (fun a b => key a <= key b) (sort_by key l).
Proof. induction l as [|x l IH]; cbn [sort_by]; [constructor|apply insert_by_sorted; exact IH]. Qed.
Lemma sorted_nth {A} (key : A -> nat) (d : A) l : StronglySorted (fun a b => key a <= key b) l ->
  forall i j, i <= j -> j < length l -> key (nth i l d) <= key (nth j l d).
Proof.
  induction 1 as [|y l S IH F]; intros i j L H; [cbn in H; lia|]. destruct i as [|i], j as [|j]; cbn [nth length] in *; try lia.
  - rewrite Forall_forall in F. apply F. apply nth_In. lia.
  - apply IH; lia.
Qed.

Definition same (a b : staves) : bool := subset a b && subset b a.
Lemma subset_incl a b : subset a b = true <-> incl a b.
Proof.
  unfold subset. rewrite forallb_forall. split; intros H x I.
  - specialize (H x I). apply existsb_exists in H. destruct H as (y & Y & E). apply Nat.eqb_eq in E. subst. exact Y.
  - apply existsb_exists. exists x. split; [apply H; exact I|apply Nat.eqb_refl].
Qed.
Lemma subset_trans a b c : subset a b = true -> subset b c = true -> subset a c = true.
Proof. rewrite !subset_incl. intros H1 H2 x I. auto. Qed.
Lemma subset_same a b : NoDup a -> subset a b = true -> length b <= length a -> same a b = true.
Proof.
  intros N S L. unfold same. rewrite S. apply subset_incl in S. cbn. apply subset_incl.
  apply (NoDup_length_incl N L S).
Qed.

Lemma find_parent_some (gs : list staves) child l ps p : find_parent gs child l ps = Some p ->
  In p ps /\ p <> child /\ ~ In p (kids l child) /\ subset (nth child gs []) (nth p gs []) = true.
Proof.
  induction ps as [|q ps IH]; [discriminate|]. cbn [find_parent].
  destruct ((q =? child) || existsb (Nat.eqb q) (kids l child)) eqn:E; [intros H; destruct (IH H) as (A & B); split; [right; exact A|exact B]|].
  apply orb_false_iff in E. destruct E as [E1 E2].
  destruct ((child <? length gs - 1) || _); [|intros H; destruct (IH H) as (A & B); split; [right; exact A|exact B]].
  destruct (subset (nth child gs []) (nth q gs [])) eqn:S; [|intros H; destruct (IH H) as (A & B); split; [right; exact A|exact B]].
  intros H. injection H as <-. split; [left; reflexivity|]. split; [apply Nat.eqb_neq; exact E1|]. split; [|exact S].
  intros I. assert (X : existsb (Nat.eqb q) (kids l child) = true) by (apply existsb_exists; exists q; split; [exact I|apply Nat.eqb_refl]). congruence.
Qed.
Lemma find_parent_first (gs : list staves) child l : forall ps n, ps = seq n (length ps) -> forall i, In i ps -> i <> child -> ~ In i (kids l child) ->
  child < length gs - 1 -> subset (nth child gs []) (nth i gs []) = true ->
  exists q, find_parent gs child l ps = Some q /\ q <= i.
Proof.
  induction ps as [|p ps IH]; intros n E i I N K C SB; [destruct I|]. cbn [length seq] in E. injection E as -> E.
  cbn [find_parent]. destruct I as [->|I].
  - replace (i =? child) with false by (symmetry; apply Nat.eqb_neq; exact N).
    assert (X : existsb (Nat.eqb i) (kids l child) = false).
    { destruct (existsb (Nat.eqb i) (kids l child)) eqn:X; [|reflexivity]. apply existsb_exists in X. destruct X as (y & Y & Q).
      apply Nat.eqb_eq in Q. subst. contradiction. }
    rewrite X. cbn [orb]. replace (child <? length gs - 1) with true by (symmetry; apply Nat.ltb_lt; exact C). cbn [orb].
    rewrite SB. exists i. split; [reflexivity|lia].
  - destruct (IH (S n) E i I N K C SB) as (q & F & Q).
    assert (L : n < i). { rewrite E in I. apply in_seq in I. lia. }
    destruct ((n =? child) || existsb (Nat.eqb n) (kids l child)); [exists q; auto|].
    destruct ((child <? length gs - 1) || _); [|exists q; auto].
    destruct (subset (nth child gs []) (nth n gs [])); [|exists q; auto]. exists n. split; [reflexivity|lia].
Qed.

Section Links.
  Variable gs : list staves.
  Hypothesis ND : forall i, i < length gs -> NoDup (nth i gs []).
  Hypothesis SORTED : forall i j, i <= j -> j < length gs -> length (nth i gs []) <= length (nth j gs []).
  Hypothesis NO3 : forall i j k, i < j -> j < k -> k < length gs ->
    same (nth i gs []) (nth j gs []) = true -> same (nth i gs []) (nth k gs []) = true -> False.

  Definition inv (k : nat) (l : links) : Prop :=
    (forall p c, In c (kids l p) -> c < p /\ c < k /\ p < length gs /\ subset (nth c gs []) (nth p gs []) = true) /\
    (forall c i, c < k -> c < i -> i < length gs -> subset (nth c gs []) (nth i gs []) = true ->
       exists q, c < q /\ q <= i /\ In c (kids l q)) /\
    Permutation (seq 0 k) (tops l ++ flat_map (kids l) (seq 0 (length gs))).

  Lemma flat_map_add (f : nat -> list nat) p c : forall ns, NoDup ns -> In p ns ->
    Permutation (flat_map (fun x => if x =? p then f x ++ [c] else f x) ns) (flat_map f ns ++ [c]).
  Proof.
    induction ns as [|n ns IH]; intros N I; [destruct I|]. inversion N as [|? ? N1 N2]; subst. cbn [flat_map].
    destruct I as [->|I].
    - rewrite Nat.eqb_refl. rewrite <- !app_assoc. apply Permutation_app_head.
      assert (E : flat_map (fun x => if x =? p then f x ++ [c] else f x) ns = flat_map f ns).
      { clear IH N2 N. induction ns as [|m ns IH]; [reflexivity|]. cbn [flat_map].
        destruct (Nat.eqb_spec m p) as [->|_]; [exfalso; apply N1; left; reflexivity|]. f_equal. apply IH. intros X. apply N1. right. exact X. }
      rewrite E. apply Permutation_app_comm.
    - destruct (Nat.eqb_spec n p) as [->|_]; [contradiction|]. rewrite <- app_assoc. apply Permutation_app_head. apply IH; assumption.
  Qed.

  Lemma inv_step k l : k < length gs -> inv k l -> inv (S k) (link_child gs l k).
  Proof.
    intros K (I1 & I2 & I3). unfold link_child.
    destruct (find_parent gs k l (seq 0 (length gs))) as [p|] eqn:F.
    - destruct (find_parent_some _ _ _ _ _ F) as (A & NE & NK & S). apply in_seq in A.
      assert (GT : k < p).
      { destruct (Nat.lt_trichotomy k p) as [L|[L|L]]; [exact L|subst; contradiction|]. exfalso.
        assert (SM : same (nth k gs []) (nth p gs []) = true).
        { apply subset_same; [apply ND; exact K|exact S|apply SORTED; lia]. }
        assert (SP : subset (nth p gs []) (nth k gs []) = true) by (unfold same in SM; apply andb_true_iff in SM; apply SM).
        destruct (I2 p k L L K SP) as (q & Q1 & Q2 & Q3).
        destruct (I1 q p Q3) as (_ & _ & _ & SQ).
        destruct (Nat.eq_dec q k) as [->|Nq]; [contradiction|].
        apply (NO3 p q k); [exact Q1|lia|exact K| |].
        - apply subset_same; [apply ND; lia|exact SQ|].
          pose proof (SORTED q k ltac:(lia) K). pose proof (SORTED p k ltac:(lia) K).
          assert (length (nth k gs []) <= length (nth p gs [])). { apply NoDup_incl_length; [apply ND; exact K|apply subset_incl; exact S]. }
          lia.
        - unfold same in *. rewrite SP, S. reflexivity. }
      split; [|split].
      + intros p' c. cbn [kids]. destruct (Nat.eqb_spec p' p) as [->|_].
        * intros I. apply in_app_iff in I. destruct I as [I|[<-|[]]].
          -- destruct (I1 _ _ I) as (X & Y & Z). split; [exact X|]. split; [lia|exact Z].
          -- split; [exact GT|]. split; [lia|]. split; [lia|exact S].
        * intros I. destruct (I1 _ _ I) as (X & Y & Z). split; [exact X|]. split; [lia|exact Z].
      + intros c i C L LI SB. cbn [kids]. destruct (Nat.eq_dec c k) as [->|NC].
        * destruct (find_parent_first gs k l (seq 0 (length gs)) 0) with (i := i) as (q & Q & QI);
            [rewrite seq_length; reflexivity|apply in_seq; lia|lia| |lia|exact SB|].
          { intros X. destruct (I1 _ _ X). lia. }
          rewrite F in Q. injection Q as <-. exists p. split; [exact GT|]. split; [exact QI|].
          rewrite Nat.eqb_refl. apply in_app_iff. right. left. reflexivity.
        * destruct (I2 c i ltac:(lia) L LI SB) as (q & Q1 & Q2 & Q3). exists q. split; [exact Q1|]. split; [exact Q2|].
          destruct (q =? p); [apply in_app_iff; left; exact Q3|exact Q3].
      + cbn [tops kids]. rewrite seq_S, I3. rewrite <- app_assoc. apply Permutation_app_head. symmetry.
        apply flat_map_add; [apply seq_NoDup|apply in_seq; lia].
    - split; [|split].
      + intros p c I. cbn [kids] in I. destruct (I1 _ _ I) as (X & Y & Z). split; [exact X|]. split; [lia|exact Z].
      + intros c i C L LI SB. cbn [kids]. destruct (Nat.eq_dec c k) as [->|NC].
        * destruct (find_parent_first gs k l (seq 0 (length gs)) 0) with (i := i) as (q & Q & QI);
            [rewrite seq_length; reflexivity|apply in_seq; lia|lia| |lia|exact SB|congruence].
          intros X. destruct (I1 _ _ X). lia.
        * apply (I2 c i); [lia|exact L|exact LI|exact SB].
      + cbn [tops kids]. rewrite seq_S, I3. rewrite <- !app_assoc. apply Permutation_app_head. apply Permutation_app_comm.
  Qed.

  Lemma inv_all : inv (length gs) (link_all gs).
  Proof.
    unfold link_all.
    assert (G : forall m k l, k + m = length gs -> inv k l -> inv (length gs) (fold_left (link_child gs) (seq k m) l)).
    { induction m as [|m IH]; intros k l E I; cbn [seq fold_left]; [replace (length gs) with k by lia; exact I|].
      apply IH; [lia|]. apply inv_step; [lia|exact I]. }
    apply G; [reflexivity|]. split; [|split].
    - intros p c [].
    - intros c i C. lia.
    - cbn [tops kids no_links seq]. assert (E : forall ns : list nat, flat_map (fun _ : nat => @nil nat) ns = []) by (induction ns; auto).
      rewrite E. reflexivity.
  Qed.

  Fixpoint idx (fuel : nat) (l : links) (i : nat) : list nat :=
    match fuel with O => [i] | S f => i :: flat_map (idx f l) (sort_by (fun c => lowest (nth c gs [])) (kids l i)) end.

  Lemma grow_idx l : forall fuel i, groups_of (grow fuel gs l i) = map (fun j => nth j gs []) (idx fuel l i).
  Proof.
    induction fuel as [|f IH]; intros i; cbn [grow groups_of idx map]; [reflexivity|]. f_equal.
    induction (sort_by _ (kids l i)) as [|c cs IHc]; cbn [map flat_map]; [reflexivity|]. rewrite map_app, IH, IHc. reflexivity.
  Qed.

  Lemma idx_unfold l f T : Permutation (flat_map (idx (S f) l) T) (T ++ flat_map (idx f l) (flat_map (kids l) T)).
  Proof.
    induction T as [|t T IH]; [reflexivity|]. cbn [flat_map]. rewrite IH. cbn [idx].
    rewrite flat_map_app. cbn [app]. constructor.
    rewrite (Permutation_flat_map _ (sort_by_perm (fun c => lowest (nth c gs [])) (kids l t))).
    rewrite !app_assoc. apply Permutation_app_tail. apply Permutation_app_comm.
  Qed.

  Lemma idx_all l : (forall p c, In c (kids l p) -> c < p) -> forall f T A, Permutation A (T ++ flat_map (kids l) A) ->
    (forall a, In a A -> a <= f) -> Permutation (flat_map (idx f l) T) A.
  Proof.
    intros D. induction f as [|f IH]; intros T A P B.
    - assert (E : flat_map (kids l) A = []).
      { destruct (flat_map (kids l) A) as [|c cs] eqn:X; [reflexivity|]. assert (I : In c (flat_map (kids l) A)) by (rewrite X; left; reflexivity).
        apply in_flat_map in I. destruct I as (a & I & C). apply D in C. apply B in I. lia. }
      rewrite E, app_nil_r in P. rewrite P. clear. cbn [idx]. induction T; cbn; [reflexivity|]. constructor. exact IHT.
    - rewrite idx_unfold. rewrite P at 1. apply Permutation_app_head. apply IH.
      + rewrite (Permutation_flat_map (kids l) P) at 1. rewrite flat_map_app. reflexivity.
      + intros a I. apply in_flat_map in I. destruct I as (b & I & C). apply D in C. apply B in I. lia.
  Qed.

  Lemma forest_groups : Permutation (flat_map groups_of (map (grow (length gs) gs (link_all gs))
        (sort_by (fun c => lowest (nth c gs [])) (tops (link_all gs))))) gs.
  Proof.
    destruct inv_all as (I1 & _ & I3). set (l := link_all gs) in *.
    assert (E : forall ns, flat_map groups_of (map (grow (length gs) gs l) ns) = map (fun j => nth j gs []) (flat_map (idx (length gs) l) ns)).
    { induction ns as [|n ns IH]; [reflexivity|]. cbn [map flat_map]. rewrite map_app, grow_idx, IH. reflexivity. }
    rewrite E. rewrite (Permutation_flat_map (idx (length gs) l) (sort_by_perm (fun c => lowest (nth c gs [])) (tops l))).
    rewrite (idx_all l) with (A := seq 0 (length gs)).
    - clear. induction gs as [|g gs' IH]; [reflexivity|]. cbn [length seq map nth]. constructor.
      rewrite <- seq_shift, map_map. exact IH.
    - intros p c I. apply (I1 _ _ I).
    - exact I3.
    - intros a I. apply in_seq in I. lia.
  Qed.

  Fixpoint nested (t : tree) : Prop :=
    match t with Node g ch => (fix all l := match l with [] => True | c :: l' => incl (root c) g /\ nested c /\ all l' end) ch end.

  Lemma grow_root l : forall fuel i, root (grow fuel gs l i) = nth i gs [].
  Proof. destruct fuel; reflexivity. Qed.
  Lemma grow_nested l : (forall p c, In c (kids l p) -> subset (nth c gs []) (nth p gs []) = true) -> forall fuel i, nested (grow fuel gs l i).
  Proof.
    intros D. induction fuel as [|f IH]; intros i; cbn [grow nested]; [exact I|].
    assert (A : forall c, In c (sort_by (fun c => lowest (nth c gs [])) (kids l i)) -> subset (nth c gs []) (nth i gs []) = true).
    { intros c C. apply D. eapply Permutation_in; [apply sort_by_perm|exact C]. }
    induction (sort_by _ (kids l i)) as [|c cs IHc]; cbn [map]; [exact I|]. split; [|split].
    - rewrite grow_root. apply subset_incl. apply A. left. reflexivity.
    - apply IH.
    - apply IHc. intros x X. apply A. right. exact X.
  Qed.
End Links.

Lemma filter_three {A} (P : A -> bool) (d : A) : forall l i j k, i < j -> j < k -> k < length l ->
  P (nth i l d) = true -> P (nth j l d) = true -> P (nth k l d) = true -> 3 <= length (filter P l).
Proof.
  assert (ONE : forall l i, i < length l -> P (nth i l d) = true -> 1 <= length (filter P l)).
  { induction l as [|x l IH]; intros i L H; [cbn in L; lia|]. cbn [filter]. destruct i as [|i]; cbn [nth length] in *.
    - rewrite H. cbn [length]. lia.
    - destruct (P x); cbn [length]; [lia|]. apply (IH i); [lia|exact H]. }
  assert (TWO : forall l i j, i < j -> j < length l -> P (nth i l d) = true -> P (nth j l d) = true -> 2 <= length (filter P l)).
  { induction l as [|x l IH]; intros i j L H H1 H2; [cbn in H; lia|]. cbn [filter]. destruct j as [|j]; [lia|]. destruct i as [|i]; cbn [nth length] in *.
    - rewrite H1. cbn [length]. specialize (ONE l j ltac:(lia) H2). lia.
    - destruct (P x); cbn [length]; [specialize (IH i j ltac:(lia) ltac:(lia) H1 H2); lia|]. apply (IH i j); [lia|lia|exact H1|exact H2]. }
  induction l as [|x l IH]; intros i j k L1 L2 H H1 H2 H3; [cbn in H; lia|]. cbn [filter].
  destruct j as [|j]; [lia|]. destruct k as [|k]; [lia|]. destruct i as [|i]; cbn [nth length] in *.
  - rewrite H1. cbn [length]. specialize (TWO l j k ltac:(lia) ltac:(lia) H2 H3). lia.
  - destruct (P x); cbn [length]; [specialize (IH i j k ltac:(lia) ltac:(lia) ltac:(lia) H1 H2 H3); lia|].
    apply (IH i j k); [lia|lia|lia|exact H1|exact H2|exact H3].
Qed.
Lemma filter_length_perm {A} (P : A -> bool) l l' : Permutation l l' -> length (filter P l) = length (filter P l').
Proof. induction 1; cbn [filter]; [reflexivity| | |congruence]; repeat destruct (P _); cbn [length]; lia. Qed.

(** Every group once, children inside their parents. *)
Theorem staff_groups groups : (forall g, In g groups -> NoDup g) ->
  (forall g, In g groups -> length (filter (same g) groups) <= 2) ->
  Permutation (flat_map groups_of (getStaffGroupTrees groups)) groups /\ Forall nested (getStaffGroupTrees groups).
Proof.
  intros N C. unfold getStaffGroupTrees. set (gs := sort_by numStaves groups).
  assert (P : Permutation gs groups) by apply sort_by_perm.
  assert (H1 : forall i, i < length gs -> NoDup (nth i gs [])).
  { intros i L. apply N. eapply Permutation_in; [exact P|apply nth_In; exact L]. }
  assert (H2 : forall i j, i <= j -> j < length gs -> length (nth i gs []) <= length (nth j gs [])).
  { apply (sorted_nth numStaves []). apply sort_by_sorted. }
  assert (H3 : forall i j k, i < j -> j < k -> k < length gs ->
    same (nth i gs []) (nth j gs []) = true -> same (nth i gs []) (nth k gs []) = true -> False).
  { intros i j k L1 L2 L3 S1 S2.
    assert (G : In (nth i gs []) groups) by (eapply Permutation_in; [exact P|apply nth_In; lia]).
    specialize (C _ G). rewrite <- (filter_length_perm _ _ _ P) in C.
    assert (R : same (nth i gs []) (nth i gs []) = true).
    { unfold same. assert (X : subset (nth i gs []) (nth i gs []) = true) by (apply subset_incl; apply incl_refl). rewrite X. reflexivity. }
    pose proof (filter_three (same (nth i gs [])) [] gs i j k L1 L2 L3 R S1 S2). lia. }
  split.
  - etransitivity; [apply forest_groups; assumption|exact P].
  - destruct (inv_all gs H1 H2 H3) as (I1 & _). apply Forall_forall. intros t T. apply in_map_iff in T. destruct T as (i & <- & _).
    apply grow_nested. intros p c X. apply (I1 _ _ X).
Qed.

(** The nodes of a tree. *)
Inductive node_of : tree -> tree -> Prop :=
| node_root t : node_of t t
| node_child t g ch c : In c ch -> node_of t c -> node_of t (Node g ch).

Lemma grow_node gs l t : forall fuel i, node_of t (grow fuel gs l i) -> exists f j, t = grow f gs l j.
Proof.
  induction fuel as [|f IH]; intros i H.
  - inversion H as [t' E|t' g' ch' c I J]; subst; [exists 0, i; reflexivity|]. destruct I.
  - inversion H as [t' E|t' g' ch' c I J]; subst; [exists (S f), i; reflexivity|].
    apply in_map_iff in I. destruct I as (j & <- & _). apply (IH j). exact J.
Qed.

Section Smallest.
  Variable gs : list staves.
  Hypothesis nodup : forall i, i < length gs -> NoDup (nth i gs []).
  Hypothesis sorted : forall i j, i <= j -> j < length gs -> length (nth i gs []) <= length (nth j gs []).
  Let at_ i := nth i gs [].

  Lemma small_parent_first l child : forall ps p, find_parent gs child l ps = Some p ->
    exists a b, ps = a ++ p :: b /\ subset (at_ child) (at_ p) = true /\
      forall q, In q a -> q <> child -> ~ In q (kids l child) -> subset (at_ child) (at_ q) = false.
  Proof.
    induction ps as [|x ps IH]; intros p H; [discriminate H|]. cbn [find_parent] in H.
    destruct ((x =? child) || existsb (Nat.eqb x) (kids l child)) eqn:K.
    { destruct (IH p H) as (a & b & -> & S1 & F). exists (x :: a), b. split; [reflexivity|]. split; [exact S1|].
      intros q [<-|I] N1 N2; [|apply F; assumption]. exfalso. apply orb_true_iff in K. destruct K as [K|K].
      - apply Nat.eqb_eq in K. contradiction.
      - apply existsb_exists in K. destruct K as (y & Y & E). apply Nat.eqb_eq in E. subst. contradiction. }
    destruct ((child <? length gs - 1) || negb _) eqn:T.
    - destruct (subset (nth child gs []) (nth x gs [])) eqn:SX.
      + injection H as <-. exists [], ps. split; [reflexivity|]. split; [exact SX|]. intros q [].
      + destruct (IH p H) as (a & b & -> & S1 & F). exists (x :: a), b. split; [reflexivity|]. split; [exact S1|].
        intros q [<-|I] N1 N2; [exact SX|apply F; assumption].
    - exfalso. clear IH K. induction ps as [|y ps IH2]; [discriminate H|]. cbn [find_parent] in H.
      destruct ((y =? child) || _); [exact (IH2 H)|]. rewrite T in H. exact (IH2 H).
  Qed.
  Lemma small_parent_none l child : forall ps, find_parent gs child l ps = None ->
    child < length gs - 1 -> forall q, In q ps -> q <> child -> ~ In q (kids l child) -> subset (at_ child) (at_ q) = false.
  Proof.
    induction ps as [|x ps IH]; intros H L q I N1 N2; [destruct I|]. cbn [find_parent] in H.
    destruct ((x =? child) || existsb (Nat.eqb x) (kids l child)) eqn:K.
    { destruct I as [<-|I]; [|apply IH; assumption]. exfalso. apply orb_true_iff in K. destruct K as [K|K].
      - apply Nat.eqb_eq in K. contradiction.
      - apply existsb_exists in K. destruct K as (y & Y & E). apply Nat.eqb_eq in E. subst. contradiction. }
    apply Nat.ltb_lt in L. rewrite L in H. cbn [orb] in H. apply Nat.ltb_lt in L.
    destruct (subset (nth child gs []) (nth x gs [])) eqn:SX; [discriminate H|].
    destruct I as [<-|I]; [exact SX|apply IH; assumption].
  Qed.

  Definition smallest (l : links) : Prop :=
    (forall p c, In c (kids l p) -> p < length gs /\ subset (at_ c) (at_ p) = true /\
       forall q, q < length gs -> subset (at_ c) (at_ q) = true -> subset (at_ q) (at_ c) = false -> length (at_ p) <= length (at_ q)) /\
    (forall c, In c (tops l) -> forall q, q < length gs -> subset (at_ c) (at_ q) = true -> subset (at_ q) (at_ c) = true).

  Lemma smallest_link l child : child < length gs -> smallest l -> smallest (link_child gs l child).
  Proof.
    intros L [H1 H2]. unfold link_child.
    assert (B : forall q, In q (kids l child) -> subset (at_ q) (at_ child) = true) by (intros q I; apply (H1 _ _ I)).
    destruct (find_parent gs child l (seq 0 (length gs))) as [p|] eqn:F; split; cbn [kids tops].
    - destruct (small_parent_first _ _ _ _ F) as (a & b & E & S1 & N).
      assert (P : p < length gs). { assert (I : In p (seq 0 (length gs))) by (rewrite E; apply in_elt). apply in_seq in I. lia. }
      intros p' c I. destruct (Nat.eqb_spec p' p) as [->|NE]; [|exact (H1 _ _ I)].
      apply in_app_iff in I. destruct I as [I|[<-|[]]]; [exact (H1 _ _ I)|]. split; [exact P|]. split; [exact S1|].
      intros q Q SQ NQ. apply sorted; [|exact Q].
      destruct (Nat.le_gt_cases p q) as [LE|GT]; [exact LE|exfalso].
      assert (LA : length a = p).
      { assert (X : nth (length a) (seq 0 (length gs)) 0 = p) by (rewrite E; apply nth_middle).
        assert (LL : length a < length gs) by (rewrite <- (seq_length (length gs) 0), E, app_length; cbn [length]; lia).
        rewrite seq_nth in X by exact LL. exact X. }
      assert (IA : In q a).
      { assert (X : nth q (seq 0 (length gs)) 0 = q) by (apply seq_nth; exact Q). rewrite E in X.
        rewrite app_nth1 in X by lia. rewrite <- X. apply nth_In. lia. }
      rewrite (N q IA) in SQ; [discriminate SQ| |].
      + intros ->. rewrite SQ in NQ. discriminate NQ.
      + intros K. rewrite (B q K) in NQ. discriminate NQ.
    - exact H2.
    - exact H1.
    - intros c I. apply in_app_iff in I. destruct I as [I|[<-|[]]]; [exact (H2 _ I)|]. intros q Q SQ.
      destruct (Nat.lt_ge_cases child (length gs - 1)) as [C|C].
      + destruct (Nat.eq_dec q child) as [->|NE]; [exact SQ|].
        destruct (in_dec Nat.eq_dec q (kids l child)) as [K|K]; [apply B; exact K|].
        pose proof (small_parent_none _ _ _ F C q (proj2 (in_seq _ _ _) (conj (Nat.le_0_l _) Q)) NE K) as X.
        unfold at_ in *. rewrite X in SQ. discriminate SQ.
      + apply subset_incl. apply subset_incl in SQ. apply (NoDup_length_incl (nodup child L)); [|exact SQ].
        apply sorted; lia.
  Qed.

  Lemma smallest_all : smallest (link_all gs).
  Proof.
    unfold link_all. assert (G : forall s l, (forall i, In i s -> i < length gs) -> smallest l -> smallest (fold_left (link_child gs) s l)).
    { induction s as [|x s IH]; intros l H I; [exact I|]. cbn [fold_left]. apply IH.
      - intros i J. apply H. right. exact J.
      - apply smallest_link; [apply H; left; reflexivity|exact I]. }
    apply G; [intros i I; apply in_seq in I; lia|]. split; [intros p c []|intros c []].
  Qed.
End Smallest.

Lemma map_strongly {A} (key : A -> nat) l : StronglySorted (fun a b => key a <= key b) l -> StronglySorted le (map key l).
Proof.
  induction 1 as [|x l S IH F]; cbn [map]; constructor; [exact IH|]. rewrite Forall_forall in *. intros y Y.
  apply in_map_iff in Y. destruct Y as (z & <- & Z). apply F. exact Z.
Qed.
Lemma sorted_roots (gs : list staves) l fuel ids :
  StronglySorted le (map (fun t => lowest (root t)) (map (grow fuel gs l) (sort_by (fun c => lowest (nth c gs [])) ids))).
Proof.
  rewrite map_map. erewrite map_ext; [apply map_strongly; apply sort_by_sorted|].
  intros i. cbn beta. rewrite grow_root. reflexivity.
Qed.

Lemma link_all_kids (gs : list staves) : forall p c, In c (kids (link_all gs) p) -> c < length gs.
Proof.
  unfold link_all. assert (G : forall s l, (forall i, In i s -> i < length gs) -> (forall p c, In c (kids l p) -> c < length gs) ->
    forall p c, In c (kids (fold_left (link_child gs) s l) p) -> c < length gs).
  { induction s as [|x s IH]; intros l H I; [exact I|]. cbn [fold_left]. apply IH; [intros i J; apply H; right; exact J|].
    intros p c. unfold link_child. destruct (find_parent _ _ _ _) as [q|]; cbn [kids]; [|apply I].
    destruct (p =? q); [|apply I]. intros K. apply in_app_iff in K. destruct K as [K|[<-|[]]]; [exact (I _ _ K)|apply H; left; reflexivity]. }
  apply G; [intros i I; apply in_seq in I; lia|]. intros p c [].
Qed.

(** At every node: children in order of lowest staff, each filed under a
    smallest group strictly containing it if there is one; no top-level group is
    strictly contained in another. *)
Theorem staff_nodes groups : (forall g, In g groups -> NoDup g) ->
  let forest := getStaffGroupTrees groups in
  StronglySorted le (map (fun t => lowest (root t)) forest) /\
  (forall t q, In t forest -> In q groups -> incl (root t) q -> incl q (root t)) /\
  (forall t g ch, In t forest -> node_of (Node g ch) t ->
     StronglySorted le (map (fun t => lowest (root t)) ch) /\
     forall c, In c ch -> incl (root c) g /\
       forall q, In q groups -> incl (root c) q -> ~ incl q (root c) -> length g <= length q).
Proof.
  intros N. cbn zeta. unfold getStaffGroupTrees. set (gs := sort_by numStaves groups).
  assert (P : Permutation gs groups) by apply sort_by_perm.
  assert (H1 : forall i, i < length gs -> NoDup (nth i gs [])).
  { intros i L. apply N. eapply Permutation_in; [exact P|apply nth_In; exact L]. }
  assert (H2 : forall i j, i <= j -> j < length gs -> length (nth i gs []) <= length (nth j gs [])).
  { apply (sorted_nth numStaves []). apply sort_by_sorted. }
  destruct (smallest_all gs H1 H2) as [A B].
  assert (Q : forall q, In q groups -> exists j, j < length gs /\ nth j gs [] = q).
  { intros q I. apply (Permutation_in q (Permutation_sym P)) in I. apply In_nth. exact I. }
  split; [apply sorted_roots|]. split.
  - intros t q I J. apply in_map_iff in I. destruct I as (i & <- & I). rewrite grow_root.
    apply (Permutation_in i (sort_by_perm _ _)) in I. destruct (Q q J) as (j & L & <-). intros K. apply subset_incl.
    apply (B i I j L). apply subset_incl. exact K.
  - intros t g ch I NO. apply in_map_iff in I. destruct I as (i & <- & _). apply grow_node in NO.
    destruct NO as (f & j & E). destruct f as [|f]; cbn [grow] in E; injection E as -> ->.
    + split; [constructor|]. intros c [].
    + split; [apply sorted_roots|]. intros c C. apply in_map_iff in C. destruct C as (k & <- & C). rewrite grow_root.
      apply (Permutation_in k (sort_by_perm _ _)) in C. destruct (A _ _ C) as (_ & S1 & M). split; [apply subset_incl; exact S1|].
      intros q J I1 I2. destruct (Q q J) as (m & L & <-). apply (M m L); [apply subset_incl; exact I1|].
      destruct (subset (nth m gs []) (nth k gs [])) eqn:X; [|reflexivity]. apply subset_incl in X. contradiction.
Qed.
