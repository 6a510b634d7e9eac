(** Proofs about section labels and repeat endings. *)
From Verif Require Import PyStr PyStrProofs LayoutModel TextModel SpineModel ImportModel ImportProofs EndingModel.
From Coq Require Import Lia.

(** ** Vocabulary *)

Definition labelled (lines : list str) (j : nat) (t : str) : Prop := section_label (nth j lines []) = Some t.
(** The label in force at a line, of those that satisfy [P]: the last one above the
    next line of data. *)
Definition in_force (P : str -> bool) (lines : list str) (i : nat) (t : str) : Prop :=
  exists j, labelled lines j t /\ P t = true /\ (forall n, i <= n < j -> ~ data_line lines n) /\
    forall j' t', j < j' -> labelled lines j' t' -> P t' = true -> exists n, i <= n < j' /\ data_line lines n.
Definition any_label (t : str) : bool := true.
Definition numberless (t : str) : bool := negb (ends_in_digit t).
Definition section_in_force := in_force any_label.
(** The name of the section, without number: the one in force, or if there is
    none yet, the first that comes into force below. *)
Definition name_in_force (lines : list str) (i : nat) (b : str) : Prop :=
  exists i', i <= i' < length lines /\ in_force numberless lines i' b /\
    forall m, i <= m < i' -> forall t, ~ in_force numberless lines m t.
(** A measure is in ending [n] of a section. *)
Definition ending_of (lines : list str) (start : nat) (t : str) (n : N) : Prop :=
  exists b d, section_in_force lines start t /\ name_in_force lines start b /\ t = b ++ d /\
    d <> [] /\ forallb is_digit d = true /\ parse_N d = n.

(** ** The labels of the lines *)

Definition last_lab (P : str -> bool) (lines : list str) : option str :=
  fold_left (fun o l => match section_label l with Some t => if P t then Some t else o | None => o end) lines None.
Lemma last_lab_snoc P p l : last_lab P (p ++ [l]) =
  match section_label l with Some t => if P t then Some t else last_lab P p | None => last_lab P p end.
Proof. unfold last_lab. rewrite fold_left_app. reflexivity. Qed.

Fixpoint nondata (l : list str) : list str :=
  match l with [] => [] | x :: l' => if isDataLine x then [] else x :: nondata l' end.
Definition nd (x : str) : bool := negb (isDataLine x).
Lemma nondata_snoc l x : nondata (l ++ [x]) =
  if forallb nd l then l ++ (if isDataLine x then [] else [x]) else nondata l.
Proof.
  unfold nd. induction l as [|y l IH]; cbn; [destruct (isDataLine x); reflexivity|].
  destruct (isDataLine y); cbn; [reflexivity|]. rewrite IH. destruct (forallb _ l); reflexivity.
Qed.
Lemma nondata_all l : forallb nd l = true -> nondata l = l.
Proof.
  unfold nd. induction l as [|y l IH]; cbn; [reflexivity|]. destruct (isDataLine y); cbn; [discriminate|].
  intros H. rewrite IH by exact H. reflexivity.
Qed.

Fixpoint ents (pre p : list str) : list entry :=
  match p with
  | [] => []
  | l :: p' =>
      mkE (isDataLine l) (last_lab any_label (pre ++ nondata p)) (last_lab numberless (pre ++ nondata p))
      :: ents (pre ++ [l]) p'
  end.
Lemma ents_data pre p : forallb (fun x => negb (e_data x)) (ents pre p) = forallb nd p.
Proof. revert pre. induction p as [|l p IH]; intros pre; cbn; [reflexivity|]. rewrite IH. reflexivity. Qed.

Lemma label_not_data l t : section_label l = Some t -> isDataLine l = false.
Proof.
  unfold section_label, isDataLine. destruct (isInterpretationLine l); [|discriminate].
  intros _. rewrite orb_true_r. reflexivity.
Qed.

Lemma ents_snoc_none l : section_label l = None -> forall p pre,
  ents pre (p ++ [l]) = ents pre p ++ [mkE (isDataLine l) (last_lab any_label (pre ++ p)) (last_lab numberless (pre ++ p))].
Proof.
  intros N. induction p as [|x p IH]; intros pre.
  - cbn [app ents nondata]. rewrite app_nil_r. destruct (isDataLine l) eqn:D; [rewrite app_nil_r; reflexivity|].
    rewrite !last_lab_snoc, N. reflexivity.
  - change ((x :: p) ++ [l]) with (x :: (p ++ [l])). cbn [ents]. rewrite IH. cbn [app].
    change (x :: p ++ [l]) with ((x :: p) ++ [l]). rewrite nondata_snoc. destruct (forallb nd (x :: p)) eqn:F.
    + rewrite (nondata_all _ F). destruct (isDataLine l).
      * rewrite app_nil_r, <- !app_assoc. reflexivity.
      * rewrite app_assoc, !last_lab_snoc, N, <- !app_assoc. reflexivity.
    + rewrite <- !app_assoc. reflexivity.
Qed.
Lemma ents_snoc_some l t : section_label l = Some t -> forall p pre,
  ents pre (p ++ [l]) =
    (if ends_in_digit t then back_copy (set_sec t) (ents pre p)
     else back_copy (set_nn t) (back_copy (set_sec t) (ents pre p))) ++
    [mkE false (Some t) (if ends_in_digit t then last_lab numberless (pre ++ p) else Some t)].
Proof.
  intros N. pose proof (label_not_data l t N) as D. induction p as [|x p IH]; intros pre.
  - cbn [app ents nondata]. rewrite app_nil_r, D, !last_lab_snoc, N. unfold any_label, numberless.
    destruct (ends_in_digit t); reflexivity.
  - change ((x :: p) ++ [l]) with (x :: (p ++ [l])). cbn [ents]. rewrite IH.
    change (x :: p ++ [l]) with ((x :: p) ++ [l]). rewrite nondata_snoc, D.
    assert (Q : forall f g b, (forall e, e_data (f e) = e_data e) ->
      back_copy f (mkE b g (last_lab numberless (pre ++ nondata (x :: p))) :: ents (pre ++ [x]) p) =
      (if negb b && forallb nd p then f (mkE b g (last_lab numberless (pre ++ nondata (x :: p)))) else
       mkE b g (last_lab numberless (pre ++ nondata (x :: p)))) :: back_copy f (ents (pre ++ [x]) p)).
    { intros f g b _. cbn [back_copy forallb e_data]. rewrite ents_data. reflexivity. }
    rewrite Q by reflexivity. clear Q.
    change (negb (isDataLine x) && forallb nd p) with (forallb nd (x :: p)).
    replace ((pre ++ [x]) ++ p) with (pre ++ x :: p) by (rewrite <- app_assoc; reflexivity).
    assert (BD : forall f M, (forall e, e_data (f e) = e_data e) ->
      forallb (fun x => negb (e_data x)) (back_copy f M) = forallb (fun x => negb (e_data x)) M).
    { intros f M Hf. induction M as [|e M IHM]; [reflexivity|]. cbn [back_copy forallb].
      rewrite IHM. f_equal. f_equal.
      match goal with |- e_data (if ?b then _ else _) = _ => destruct b end; [apply Hf|reflexivity]. }
    destruct (forallb nd (x :: p)) eqn:F.
    + rewrite (nondata_all _ F), app_assoc, !last_lab_snoc, N. unfold any_label at 1. unfold numberless at 1.
      destruct (ends_in_digit t); cbn [negb]; [reflexivity|].
      unfold set_sec at 2. cbn [e_data e_nn e_sec]. cbn [back_copy]. cbn [forallb e_data].
      rewrite BD by reflexivity. rewrite ents_data. change (negb (isDataLine x) && forallb nd p) with (forallb nd (x :: p)).
      rewrite F. reflexivity.
    + destruct (ends_in_digit t); [reflexivity|].
      cbn [back_copy]. cbn [forallb e_data]. rewrite BD by reflexivity. rewrite ents_data.
      change (negb (isDataLine x) && forallb nd p) with (forallb nd (x :: p)). rewrite F. reflexivity.
Qed.

Lemma label_loop_spec ls : forall p,
  label_loop ls (last_lab any_label p) (last_lab numberless p) (ents [] p) = ents [] (p ++ ls).
Proof.
  induction ls as [|l ls IH]; intros p; [rewrite app_nil_r; reflexivity|].
  cbn [label_loop]. replace (p ++ l :: ls) with ((p ++ [l]) ++ ls) by (rewrite <- app_assoc; reflexivity).
  rewrite <- IH. destruct (section_label l) as [t|] eqn:E.
  - rewrite (ents_snoc_some l t E p []), !last_lab_snoc, E.
    rewrite (label_not_data l t E). change (any_label t) with true. change (numberless t) with (negb (ends_in_digit t)).
    destruct (ends_in_digit t); reflexivity.
  - rewrite (ents_snoc_none l E p []), !last_lab_snoc, E. reflexivity.
Qed.
Lemma label_loop_all lines : label_loop lines None None [] = ents [] lines.
Proof. exact (label_loop_spec lines []). Qed.

Definition upto (lines : list str) (i : nat) : list str := firstn i lines ++ nondata (skipn i lines).
Lemma nth_error_ents i : forall p pre l, nth_error p i = Some l ->
  nth_error (ents pre p) i = Some (mkE (isDataLine l) (last_lab any_label (pre ++ upto p i)) (last_lab numberless (pre ++ upto p i))).
Proof.
  unfold upto. induction i as [|i IH]; intros [|x p] pre l H; try discriminate.
  - cbn in H. injection H as ->. reflexivity.
  - cbn in H. change (ents pre (x :: p)) with (mkE (isDataLine x) (last_lab any_label (pre ++ nondata (x :: p)))
      (last_lab numberless (pre ++ nondata (x :: p))) :: ents (pre ++ [x]) p). cbn [nth_error].
    rewrite (IH p (pre ++ [x]) l H). cbn [firstn skipn]. rewrite <- !app_assoc. reflexivity.
Qed.

(** ** The label in force *)

Lemma last_lab_some P xs t : last_lab P xs = Some t <->
  exists j, labelled xs j t /\ P t = true /\ forall j' t', j < j' -> labelled xs j' t' -> P t' = false.
Proof.
  unfold labelled. induction xs as [|x xs IH] using rev_ind.
  - split; [discriminate|]. intros (j & H & _). destruct j; discriminate.
  - rewrite last_lab_snoc.
    assert (NL : forall j, length xs < j -> section_label (nth j (xs ++ [x]) []) = None).
    { intros j J. rewrite nth_overflow by (rewrite app_length; cbn; lia). reflexivity. }
    assert (NE : nth (length xs) (xs ++ [x]) [] = x) by (rewrite app_nth2 by lia; rewrite Nat.sub_diag; reflexivity).
    assert (NB : forall j, j < length xs -> nth j (xs ++ [x]) [] = nth j xs []) by (intros; apply app_nth1; assumption).
    assert (Lt : forall j u, section_label (nth j (xs ++ [x]) []) = Some u -> j <= length xs).
    { intros j u H. destruct (Nat.le_gt_cases j (length xs)) as [Q|Q]; [exact Q|]. rewrite (NL j Q) in H. discriminate. }
    assert (Lt' : forall j u, section_label (nth j xs []) = Some u -> j < length xs).
    { intros j u H. destruct (Nat.lt_ge_cases j (length xs)) as [Q|Q]; [exact Q|]. rewrite nth_overflow in H by exact Q. discriminate. }
    assert (Old : (forall u, section_label x = Some u -> P u = false) ->
      (last_lab P xs = Some t <-> exists j, section_label (nth j (xs ++ [x]) []) = Some t /\ P t = true /\
        forall j' t', j < j' -> section_label (nth j' (xs ++ [x]) []) = Some t' -> P t' = false)).
    { intros X. rewrite IH. split; intros (j & H1 & H2 & H3); exists j.
      - pose proof (Lt' j t H1) as J. rewrite NB by exact J. split; [exact H1|]. split; [exact H2|].
        intros j' t' Q H'. pose proof (Lt j' t' H') as J'. destruct (Nat.eq_dec j' (length xs)) as [->|NEq].
        + rewrite NE in H'. apply X. exact H'.
        + rewrite NB in H' by lia. exact (H3 j' t' Q H').
      - pose proof (Lt j t H1) as J. destruct (Nat.eq_dec j (length xs)) as [->|NEq].
        + rewrite NE in H1. rewrite (X t H1) in H2. discriminate.
        + rewrite NB in H1 by lia. split; [exact H1|]. split; [exact H2|].
          intros j' t' Q H'. pose proof (Lt' j' t' H') as J'. apply (H3 j' t' Q). rewrite NB by exact J'. exact H'. }
    destruct (section_label x) as [u|] eqn:E; [|apply Old; discriminate].
    destruct (P u) eqn:PU; [|apply Old; intros v Hv; injection Hv as <-; exact PU].
    split.
    + intros H. injection H as ->. exists (length xs). rewrite NE. split; [exact E|]. split; [exact PU|].
      intros j' t' Q H'. rewrite (NL j' Q) in H'. discriminate.
    + intros (j & H1 & H2 & H3). pose proof (Lt j t H1) as J. destruct (Nat.eq_dec j (length xs)) as [->|NEq].
      * rewrite NE, E in H1. injection H1 as ->. reflexivity.
      * rewrite (H3 (length xs) u) in PU; [discriminate|lia|]. rewrite NE. exact E.
Qed.

Lemma nondata_prefix l : exists r, l = nondata l ++ r /\ (r = [] \/ exists x r', r = x :: r' /\ isDataLine x = true) /\
  (forall x, In x (nondata l) -> isDataLine x = false).
Proof.
  induction l as [|x l (r & E & R & F)]; [exists []; split; [reflexivity|split; [left; reflexivity|intros x []]]|].
  cbn. destruct (isDataLine x) eqn:D.
  - exists (x :: l). split; [reflexivity|]. split; [right; exists x, l; auto|intros y []].
  - exists r. split; [cbn; rewrite <- E; reflexivity|]. split; [exact R|]. intros y [<-|I]; [exact D|apply F; exact I].
Qed.

Lemma isData_nth lines n : data_line lines n <-> isDataLine (nth n lines []) = true.
Proof.
  rewrite <- isDataLine_spec. change false with (isDataLine []). rewrite map_nth. reflexivity.
Qed.

(** Line [j], if it is a label, counts at line [i] exactly if no data stands
    between. *)
Lemma upto_reaches lines i j : i <= length lines -> j < length lines -> isDataLine (nth j lines []) = false ->
  (j < length (upto lines i) <-> forall n, i <= n < j -> ~ data_line lines n).
Proof.
  intros Hi Hj Dj. unfold upto. destruct (nondata_prefix (skipn i lines)) as (r & E & R & F).
  rewrite app_length, firstn_length_le by exact Hi.
  assert (L : length lines = i + length (nondata (skipn i lines)) + length r).
  { pose proof (f_equal (@length _) E) as Q. rewrite skipn_length, app_length in Q. lia. }
  assert (NT : forall n, i <= n < length lines -> nth n lines [] = nth (n - i) (nondata (skipn i lines) ++ r) []).
  { intros n Q. rewrite <- E. rewrite <- (firstn_skipn i lines) at 1. rewrite app_nth2 by (rewrite firstn_length_le; lia).
    rewrite firstn_length_le by lia. reflexivity. }
  split.
  - intros Q n Hn Dn. apply isData_nth in Dn. rewrite NT in Dn by lia. rewrite app_nth1 in Dn by (unfold str in *; lia).
    rewrite F in Dn; [discriminate|]. apply nth_In. unfold str in *; lia.
  - intros H. destruct (Nat.lt_ge_cases j (i + length (nondata (skipn i lines)))) as [Q|Q]; [exact Q|exfalso].
    destruct R as [->|(x & r' & -> & Dx)]; [cbn in L; lia|].
    remember (i + length (nondata (skipn i lines))) as n eqn:En.
    assert (Dn : isDataLine (nth n lines []) = true).
    { rewrite NT by lia. rewrite app_nth2 by lia.
      match goal with |- context [nth ?m (x :: r')] => replace m with 0 by (unfold str in *; lia) end. exact Dx. }
    destruct (Nat.eq_dec n j) as [->|NE]; [congruence|]. apply (H n); [lia|]. apply isData_nth. exact Dn.
Qed.

Lemma upto_prefix lines i : i <= length lines -> exists r, lines = upto lines i ++ r.
Proof.
  intros Hi. unfold upto. destruct (nondata_prefix (skipn i lines)) as (r & E & _).
  exists r. rewrite <- app_assoc, <- E, firstn_skipn. reflexivity.
Qed.

Lemma find_data lines i j : (exists n, i <= n < j /\ data_line lines n) \/ (forall n, i <= n < j -> ~ data_line lines n).
Proof.
  induction j as [|j IH]; [right; lia|]. destruct IH as [(n & H & D)|IH]; [left; exists n; split; [lia|exact D]|].
  destruct (Nat.le_gt_cases i j) as [Q|Q]; [|right; lia].
  destruct (isDataLine (nth j lines [])) eqn:E.
  - left. exists j. split; [lia|]. apply isData_nth. exact E.
  - right. intros n H D. destruct (Nat.eq_dec n j) as [->|NE].
    + apply isData_nth in D. congruence.
    + apply (IH n); [lia|exact D].
Qed.

Theorem force_spec P lines i t : i <= length lines -> (last_lab P (upto lines i) = Some t <-> in_force P lines i t).
Proof.
  intros Hi. rewrite last_lab_some. unfold in_force, labelled.
  destruct (upto_prefix lines i Hi) as (r & E).
  assert (NT : forall j, j < length (upto lines i) -> nth j (upto lines i) [] = nth j lines []).
  { intros j J. rewrite E at 2. rewrite app_nth1 by exact J. reflexivity. }
  assert (LL : length (upto lines i) <= length lines) by (rewrite E at 2; rewrite app_length; lia).
  assert (Lt : forall (l : list str) j u, section_label (nth j l []) = Some u -> j < length l).
  { intros l j u H. destruct (Nat.lt_ge_cases j (length l)) as [Q|Q]; [exact Q|]. rewrite nth_overflow in H by exact Q. discriminate. }
  split; intros (j & H1 & H2 & H3).
  - pose proof (Lt _ _ _ H1) as J. rewrite NT in H1 by exact J. exists j. split; [exact H1|]. split; [exact H2|]. split.
    + apply upto_reaches; [exact Hi|unfold str in *; lia|apply (label_not_data _ _ H1)|exact J].
    + intros j' t' Q L' P'.
      destruct (Nat.lt_ge_cases j' (length (upto lines i))) as [X|X].
      * exfalso. rewrite (H3 j' t') in P'; [discriminate|exact Q|]. rewrite NT by exact X. exact L'.
      * pose proof (upto_reaches lines i j' Hi (Lt _ _ _ L') (label_not_data _ _ L')) as [_ U].
        destruct (find_data lines i j') as [Y|Y]; [exact Y|]. exfalso. specialize (U Y). unfold str in *; lia.
  - destruct H3 as [H3 H4]. pose proof (Lt _ _ _ H1) as J.
    assert (J' : j < length (upto lines i)) by (apply upto_reaches; [exact Hi|exact J|apply (label_not_data _ _ H1)|exact H3]).
    exists j. rewrite NT by exact J'. split; [exact H1|]. split; [exact H2|]. intros j' t' Q L'.
    pose proof (Lt _ _ _ L') as X. rewrite NT in L' by exact X. destruct (P t') eqn:P'; [|reflexivity].
    destruct (H4 j' t' Q L' P') as (n & Hn & Dn). exfalso.
    pose proof (upto_reaches lines i j' Hi (Lt _ _ _ L') (label_not_data _ _ L')) as [U _].
    exact (U X n Hn Dn).
Qed.

(** ** The number of an ending *)

Lemma smear_spec l : forall i b, nth i (smear l) None = Some b <->
  exists i', i <= i' < length l /\ nth i' l None = Some b /\ forall m, i <= m < i' -> nth m l None = None.
Proof.
  induction l as [|x l IH]; intros i b.
  - split; [destruct i; discriminate|]. intros (i' & H & _). cbn in H. lia.
  - assert (HD : match smear l with Some t :: _ => Some t | _ => None end = nth 0 (smear l) None).
    { destruct (smear l) as [|[t|] r]; reflexivity. }
    assert (TL : forall j, nth (S j) (smear (x :: l)) None = nth j (smear l) None).
    { intros j. cbn [smear]. destruct x; [reflexivity|]. destruct (smear l) as [|[t|] r]; reflexivity. }
    destruct i as [|i].
    + assert (H0 : nth 0 (smear (x :: l)) None = match x with Some t => Some t | None => nth 0 (smear l) None end).
      { rewrite <- HD. cbn [smear]. destruct x; [reflexivity|]. destruct (smear l) as [|[t|] r]; reflexivity. }
      rewrite H0. destruct x as [t|].
      * split.
        -- intros H. injection H as ->. exists 0. cbn. split; [lia|]. split; [reflexivity|]. lia.
        -- intros (i' & H1 & H2 & H3). destruct i' as [|i']; [exact H2|]. specialize (H3 0 ltac:(lia)). discriminate.
      * rewrite IH. split.
        -- intros (i' & H1 & H2 & H3). exists (S i'). cbn [length nth]. split; [lia|]. split; [exact H2|].
           intros [|m] Hm; [reflexivity|]. apply H3. lia.
        -- intros (i' & H1 & H2 & H3). destruct i' as [|i']; [discriminate|]. exists i'. cbn [length] in H1.
           split; [lia|]. split; [exact H2|]. intros m Hm. apply (H3 (S m)). lia.
    + rewrite TL, IH. split.
      * intros (i' & H1 & H2 & H3). exists (S i'). cbn [length nth]. split; [lia|]. split; [exact H2|].
        intros [|m] Hm; [lia|]. apply H3. lia.
      * intros (i' & H1 & H2 & H3). destruct i' as [|i']; [lia|]. exists i'. cbn [length] in H1.
        split; [lia|]. split; [exact H2|]. intros m Hm. apply (H3 (S m)). lia.
Qed.

Lemma nth_labels lines i : i < length lines ->
  nth i (sectionLabels lines) None = last_lab any_label (upto lines i) /\
  nth i (map e_nn (label_loop lines None None [])) None = last_lab numberless (upto lines i).
Proof.
  intros Hi. unfold sectionLabels. rewrite label_loop_all.
  destruct (nth_error lines i) as [l|] eqn:E; [|apply nth_error_None in E; unfold str in *; lia].
  pose proof (nth_error_ents i lines [] l E) as X. cbn [app] in X.
  split; apply nth_error_nth; rewrite nth_error_map, X; reflexivity.
Qed.
Lemma ents_length p : forall pre, length (ents pre p) = length p.
Proof. induction p as [|l p IH]; intros pre; cbn; [reflexivity|]. rewrite IH. reflexivity. Qed.

Lemma section_force lines i t : i < length lines ->
  (nth i (sectionLabels lines) None = Some t <-> section_in_force lines i t).
Proof. intros Hi. rewrite (proj1 (nth_labels lines i Hi)). apply force_spec. lia. Qed.
Lemma name_force lines i b : i < length lines ->
  (nth i (numberlessLabels lines) None = Some b <-> name_in_force lines i b).
Proof.
  intros Hi. unfold numberlessLabels, name_in_force. rewrite smear_spec, map_length, label_loop_all, ents_length.
  rewrite <- label_loop_all.
  assert (N : forall m, m < length lines ->
    (nth m (map e_nn (label_loop lines None None [])) None = None <-> forall t, ~ in_force numberless lines m t)).
  { intros m Hm. rewrite (proj2 (nth_labels lines m Hm)). split.
    - intros H t F. apply (force_spec numberless lines m t ltac:(lia)) in F. congruence.
    - intros H. destruct (last_lab numberless (upto lines m)) as [t|] eqn:Q; [|reflexivity].
      exfalso. apply (H t). apply force_spec; [lia|exact Q]. }
  split; intros (i' & H1 & H2 & H3); exists i'; (split; [exact H1|]); split.
  - rewrite (proj2 (nth_labels lines i' ltac:(lia))) in H2. apply force_spec; [lia|exact H2].
  - intros m Hm. apply N; [lia|]. apply H3. exact Hm.
  - rewrite (proj2 (nth_labels lines i' ltac:(lia))). apply force_spec; [lia|exact H2].
  - intros m Hm. apply N; [lia|]. apply H3. exact Hm.
Qed.

Lemma force_label P lines i t : in_force P lines i t -> exists j, labelled lines j t /\ P t = true.
Proof. intros (j & H1 & H2 & _). exists j. split; assumption. Qed.

Lemma starts_with_app b t : starts_with b t = true <-> exists d, t = b ++ d.
Proof.
  revert t. induction b as [|x b IH]; intros t; [split; [intros _; exists t; reflexivity|reflexivity]|].
  destruct t as [|y t]; cbn; [split; [discriminate|intros (d & H); discriminate]|].
  rewrite andb_true_iff, IH. split.
  - intros (E & d & ->). apply Ascii.eqb_eq in E. subst y. exists d. reflexivity.
  - intros (d & H). injection H as -> ->. split; [apply Ascii.eqb_refl|exists d; reflexivity].
Qed.

Lemma ends_app a d : d <> [] -> ends_in_digit (a ++ d) = ends_in_digit d.
Proof.
  intros H. unfold ends_in_digit. rewrite rev_app_distr. destruct (rev d) as [|c r] eqn:E; [|reflexivity].
  apply (f_equal (@rev _)) in E. rewrite rev_involutive in E. contradiction.
Qed.
Lemma ends_digits d : d <> [] -> forallb is_digit d = true -> ends_in_digit d = true.
Proof.
  intros H F. unfold ends_in_digit. destruct (rev d) as [|c r] eqn:E.
  - apply (f_equal (@rev _)) in E. rewrite rev_involutive in E. contradiction.
  - rewrite forallb_forall in F. apply F. apply in_rev. rewrite E. left. reflexivity.
Qed.
Lemma final_digits_app a d : ends_in_digit a = false -> forallb is_digit d = true -> final_digits (a ++ d) = d.
Proof.
  intros H F. unfold final_digits. rewrite rev_app_distr.
  assert (F' : forallb is_digit (rev d) = true).
  { apply forallb_forall. intros c I. rewrite forallb_forall in F. apply F. apply in_rev. exact I. }
  unfold ends_in_digit in H. destruct (rev a) as [|c r].
  - rewrite app_nil_r, span_all by exact F'. cbn. apply rev_involutive.
  - assert (X : forall x, forallb is_digit x = true -> fst (span is_digit (x ++ c :: r)) = x).
    { induction x as [|y x IH]; cbn; [rewrite H; reflexivity|]. intros Q. apply andb_true_iff in Q. destruct Q as [Q1 Q2].
      rewrite Q1. specialize (IH Q2). destruct (span is_digit (x ++ c :: r)). cbn in *. rewrite IH. reflexivity. }
    rewrite X by exact F'. apply rev_involutive.
Qed.

(** No label with a number merely begins like the name of another section. *)
Definition clear_names (lines : list str) : Prop :=
  forall j j' b t, labelled lines j b -> labelled lines j' t -> ends_in_digit b = false -> starts_with b t = true ->
    exists d, t = b ++ d /\ (d = [] \/ ends_in_digit d = false \/ forallb is_digit d = true).

Lemma label_shape l t : section_label l = Some t -> exists r, t = "*"%char :: ">"%char :: r.
Proof.
  unfold section_label. destruct (isInterpretationLine l); [|discriminate]. destruct (tokens l) as [|x xs]; [discriminate|].
  destruct (starts_with (S_ "*>") x && negb (char_in "["%char x)) eqn:E; [|discriminate].
  intros H. injection H as <-. apply andb_true_iff in E. destruct E as [E _].
  apply starts_with_app in E. destruct E as (d & ->). exists d. reflexivity.
Qed.

Theorem endingNumber_spec lines s n : s < length lines -> clear_names lines ->
  (endingNumber lines s = Some n <-> exists t, ending_of lines s t n).
Proof.
  intros Hs CN. unfold endingNumber, ending_of.
  assert (Sh : forall r, ends_in_digit ("*"%char :: ">"%char :: r) = ends_in_digit r).
  { intros r. destruct r as [|c r]; [reflexivity|]. apply (ends_app ["*"; ">"]%char (c :: r)). discriminate. }
  assert (Fd : forall r, final_digits ("*"%char :: ">"%char :: r) = final_digits r).
  { intros r. unfold final_digits. f_equal. change ("*"%char :: ">"%char :: r) with (["*"; ">"]%char ++ r).
    rewrite rev_app_distr. cbn [rev app].
    generalize (rev r). intros x. induction x as [|y x IH]; [reflexivity|]. cbn.
    destruct (is_digit y); [|reflexivity]. destruct (span is_digit (x ++ _)), (span is_digit x). cbn in *. congruence. }
  split.
  - destruct (nth s (sectionLabels lines) None) as [t|] eqn:E; [|discriminate].
    apply section_force in E; [|exact Hs]. pose proof (force_label _ _ _ _ E) as (j & Lj & _).
    destruct (label_shape _ _ Lj) as (r & Er).
    replace (starts_with (S_ "*>") t) with true by (rewrite Er; reflexivity). rewrite Er. cbn [skipn]. rewrite <- Er.
    destruct (ends_in_digit r) eqn:Dr; [|discriminate].
    destruct (nth s (numberlessLabels lines) None) as [b|] eqn:Eb; [|discriminate].
    apply name_force in Eb; [|exact Hs].
    destruct (match b with [] => false | _ => true end && starts_with b t) eqn:C; [|discriminate].
    apply andb_true_iff in C. destruct C as [_ C]. intros H. injection H as <-.
    destruct Eb as (i' & I1 & I2 & I3). pose proof (force_label _ _ _ _ I2) as (j' & Lb & Nb).
    unfold numberless in Nb. apply negb_true_iff in Nb.
    assert (Dt : ends_in_digit t = true) by (rewrite Er, Sh; exact Dr).
    destruct (CN j' j b t Lb Lj Nb C) as (d & Ed & X).
    assert (Dd : d <> []) by (intros ->; rewrite app_nil_r in Ed; subst b; congruence).
    assert (Fdd : forallb is_digit d = true).
    { destruct X as [X|[X|X]]; [contradiction| |exact X]. rewrite Ed, ends_app in Dt by exact Dd. congruence. }
    exists t, b, d. split; [exact E|]. split; [exists i'; auto|]. split; [exact Ed|]. split; [exact Dd|]. split; [exact Fdd|].
    rewrite <- Fd, <- Er, Ed, final_digits_app by assumption. reflexivity.
  - intros (t & b & d & E & Eb & Et & Dd & Fdd & <-). pose proof (force_label _ _ _ _ E) as (j & Lj & _).
    apply section_force in E; [|exact Hs]. rewrite E.
    destruct (label_shape _ _ Lj) as (r & Er).
    replace (starts_with (S_ "*>") t) with true by (rewrite Er; reflexivity).
    replace (skipn 2 t) with r by (rewrite Er; reflexivity).
    assert (Dt : ends_in_digit t = true) by (rewrite Et, ends_app by exact Dd; apply ends_digits; assumption).
    rewrite <- Sh, <- Er, Dt.
    assert (Nb : exists j', labelled lines j' b /\ numberless b = true) by (destruct Eb as (i' & _ & I2 & _); eapply force_label; exact I2).
    apply name_force in Eb; [|exact Hs]. rewrite Eb.
    destruct Nb as (j' & Lb & Nb). destruct (label_shape _ _ Lb) as (rb & Erb).
    assert (NE : match b with [] => false | _ => true end = true) by (rewrite Erb; reflexivity). rewrite NE.
    replace (starts_with b t) with true by (symmetry; apply starts_with_app; exists d; exact Et).
    cbn [andb]. rewrite <- Fd, <- Er, Et, final_digits_app; [reflexivity| |exact Fdd].
    unfold numberless in Nb. apply negb_true_iff in Nb. exact Nb.
Qed.

(** ** The brackets *)

Definition brackets_ok (es : list (option N)) (brs : list (N * list nat)) : Prop :=
  (forall j n ks, nth_error brs j = Some (n, ks) -> exists a len, ks = seq a len /\ 0 < len /\ a + len <= length es /\
     (forall m, a <= m < a + len -> nth m es None = Some n) /\
     (a = 0 \/ nth (a - 1) es None <> Some n) /\
     (a + len = length es \/ nth (a + len) es None <> Some n)) /\
  (forall m n, nth m es None = Some n -> exists j ks, nth_error brs j = Some (n, ks) /\ In m ks) /\
  (forall j j' n n' ks ks' m m', j < j' -> nth_error brs j = Some (n, ks) -> nth_error brs j' = Some (n', ks') ->
     In m ks -> In m' ks' -> m < m').

Lemma add_to_last_snoc k l n ks : add_to_last k (l ++ [(n, ks)]) = l ++ [(n, ks ++ [k])].
Proof.
  induction l as [|x l IH]; [reflexivity|]. cbn [app]. cbn [add_to_last].
  destruct (l ++ [(n, ks)]) as [|y r] eqn:E; [destruct l; discriminate|]. rewrite IH. destruct x; reflexivity.
Qed.

Definition binv (pre : list (option N)) (st : bstate) : Prop :=
  brackets_ok pre (b_brackets st) /\
  (b_open st = false -> b_num st = 0%N /\ (pre = [] \/ exists p, pre = p ++ [None])) /\
  (b_open st = true -> exists brs0 a len, b_brackets st = brs0 ++ [(b_num st, seq a len)] /\ 0 < len /\ a + len = length pre).

Lemma nth_snoc_last {A} (l : list A) x d : nth (length l) (l ++ [x]) d = x.
Proof. rewrite app_nth2 by lia. rewrite Nat.sub_diag. reflexivity. Qed.
Lemma nth_error_snoc {A} (l : list A) x j y : nth_error (l ++ [x]) j = Some y ->
  (j < length l /\ nth_error l j = Some y) \/ (j = length l /\ x = y).
Proof.
  intros H. destruct (Nat.lt_ge_cases j (length l)) as [Q|Q].
  - left. rewrite nth_error_app1 in H by exact Q. auto.
  - right. rewrite nth_error_app2 in H by exact Q. destruct (j - length l) as [|m] eqn:E; cbn in H.
    + injection H as ->. split; [lia|reflexivity].
    + destruct m; discriminate.
Qed.

Lemma binv_step pre e st st' : e <> Some 0%N -> binv pre st -> bracket_step (length pre) e st = Some st' -> binv (pre ++ [e]) st'.
Proof.
  intros NZ ((A & B & C) & O1 & O2) H.
  assert (NL : forall m, m < length pre -> nth m (pre ++ [e]) None = nth m pre None) by (intros; apply app_nth1; assumption).
  assert (NE : nth (length pre) (pre ++ [e]) None = e) by apply nth_snoc_last.
  assert (LE : length (pre ++ [e]) = S (length pre)) by (rewrite app_length; cbn; lia).
  assert (LB : forall m n, nth m pre None = Some n -> m < length pre).
  { intros m n Q. destruct (Nat.lt_ge_cases m (length pre)) as [X|X]; [exact X|]. rewrite nth_overflow in Q by exact X. discriminate. }
  (* the number of a bracket that reaches the end of [pre] *)
  assert (Reach : forall j n ks a len, nth_error (b_brackets st) j = Some (n, ks) -> ks = seq a len -> 0 < len ->
    a + len = length pre -> (forall m, a <= m < a + len -> nth m pre None = Some n) ->
    b_open st = true /\ n = b_num st /\ S j = length (b_brackets st)).
  { intros j n ks a len J -> Hl He Hm. specialize (Hm (length pre - 1) ltac:(lia)).
    destruct (b_open st) eqn:Op.
    2:{ destruct (O1 eq_refl) as [_ [->|(p & ->)]]; [cbn in He; lia|].
        rewrite app_length in Hm. cbn in Hm. replace (length p + 1 - 1) with (length p) in Hm by lia.
        rewrite nth_snoc_last in Hm. discriminate. }
    destruct (O2 eq_refl) as (brs0 & a' & len' & Eb & Hl' & He'). split; [reflexivity|].
    rewrite Eb in J |- *. apply nth_error_snoc in J. destruct J as [[J1 J2]|[-> J]].
    - exfalso. assert (X : length pre - 1 < length pre - 1); [|lia].
      apply (C j (length brs0) n (b_num st) (seq a len) (seq a' len') _ _ J1).
      + rewrite Eb, nth_error_app1 by exact J1. exact J2.
      + rewrite Eb, nth_error_app2, Nat.sub_diag by lia. reflexivity.
      + apply in_seq. lia.
      + apply in_seq. lia.
    - injection J as -> _. rewrite app_length. cbn. split; [reflexivity|lia]. }
  destruct e as [n|]; cbn [bracket_step] in H.
  2:{ injection H as <-. split; [|split; cbn; [intros _; split; [reflexivity|right; exists pre; reflexivity]|discriminate]].
      cbn [b_brackets]. split; [|split].
      - intros j n ks J. destruct (A j n ks J) as (a & len & E & Hl & He & Hm & Ml & Mr).
        exists a, len. split; [exact E|]. split; [exact Hl|]. split; [lia|]. split; [|split].
        + intros m Q. rewrite NL by lia. apply Hm. exact Q.
        + destruct Ml as [Ml|Ml]; [left; exact Ml|right]. rewrite NL by lia. exact Ml.
        + right. destruct (Nat.eq_dec (a + len) (length pre)) as [Q|Q].
          * rewrite Q, NE. discriminate.
          * rewrite NL by lia. destruct Mr as [Mr|Mr]; [lia|exact Mr].
      - intros m n Q. destruct (Nat.lt_ge_cases m (length pre)) as [X|X].
        + rewrite NL in Q by exact X. apply B. exact Q.
        + destruct (Nat.eq_dec m (length pre)) as [->|Y]; [rewrite NE in Q; discriminate|].
          rewrite nth_overflow in Q by lia. discriminate.
      - exact C. }
  assert (NZ' : n <> 0%N) by congruence.
  destruct (N.eqb_spec (b_num st) n) as [En|En]; cbn [negb] in H.
  - (* the ending goes on *)
    destruct (b_open st) eqn:Op; [|discriminate]. injection H as <-.
    destruct (O2 eq_refl) as (brs0 & a0 & len0 & Eb & Hl0 & He0). rewrite En in Eb.
    assert (Last : nth_error (b_brackets st) (length brs0) = Some (n, seq a0 len0)).
    { rewrite Eb, nth_error_app2, Nat.sub_diag by lia. reflexivity. }
    destruct (A _ _ _ Last) as (a1 & len1 & E1 & Hl1 & He1 & Hm1 & Ml1 & Mr1).
    assert (a1 = a0 /\ len1 = len0) as [-> ->].
    { pose proof (f_equal (@length _) E1) as Q. rewrite !seq_length in Q. subst len1.
      destruct len0; [lia|]. cbn in E1. injection E1 as Q _. auto. }
    assert (Enew : add_to_last (length pre) (b_brackets st) = brs0 ++ [(n, seq a0 (S len0))]).
    { rewrite Eb, add_to_last_snoc, seq_S, He0. reflexivity. }
    unfold binv. cbn [b_brackets b_open b_num]. rewrite Enew. split; [|split; [discriminate|]].
    2:{ intros _. exists brs0, a0, (S len0). split; [reflexivity|]. rewrite LE. split; lia. }
    assert (Lift : forall j x, j < length brs0 -> nth_error brs0 j = Some x -> nth_error (b_brackets st) j = Some x).
    { intros j x J Q. rewrite Eb, nth_error_app1 by exact J. exact Q. }
    split; [|split].
    + intros j n' ks J. apply nth_error_snoc in J. destruct J as [[J1 J2]|[-> J]].
      * pose proof (Lift _ _ J1 J2) as J3. destruct (A j n' ks J3) as (a & len & E & Hl & He & Hm & Ml & Mr).
        assert (Ne : a + len <> length pre).
        { intros Q. destruct (Reach j n' ks a len J3 E Hl Q Hm) as (_ & _ & X). rewrite Eb, app_length in X. cbn in X. lia. }
        exists a, len. split; [exact E|]. split; [exact Hl|]. split; [lia|]. split; [|split].
        -- intros m Q. rewrite NL by lia. apply Hm. exact Q.
        -- destruct Ml as [Ml|Ml]; [left; exact Ml|right]. rewrite NL by lia. exact Ml.
        -- right. rewrite NL by lia. destruct Mr as [Mr|Mr]; [lia|exact Mr].
      * injection J as <- <-. exists a0, (S len0). split; [reflexivity|]. split; [lia|]. split; [lia|]. split; [|split].
        -- intros m Q. destruct (Nat.eq_dec m (length pre)) as [->|X]; [exact NE|]. rewrite NL by lia. apply Hm1. lia.
        -- destruct Ml1 as [Ml|Ml]; [left; exact Ml|right]. rewrite NL by lia. exact Ml.
        -- left. lia.
    + intros m n' Q. destruct (Nat.eq_dec m (length pre)) as [->|X].
      * rewrite NE in Q. injection Q as <-. exists (length brs0), (seq a0 (S len0)).
        rewrite nth_error_app2, Nat.sub_diag by lia. split; [reflexivity|]. apply in_seq. lia.
      * assert (Q' : nth m pre None = Some n').
        { destruct (Nat.lt_ge_cases m (length pre)) as [Y|Y]; [rewrite NL in Q by exact Y; exact Q|].
          rewrite nth_overflow in Q by lia. discriminate. }
        destruct (B m n' Q') as (j & ks & J & I). rewrite Eb in J. apply nth_error_snoc in J.
        destruct J as [[J1 J2]|[-> J]].
        -- exists j, ks. rewrite nth_error_app1 by exact J1. auto.
        -- injection J as <- <-. exists (length brs0), (seq a0 (S len0)).
           rewrite nth_error_app2, Nat.sub_diag by lia. split; [reflexivity|]. apply in_seq. apply in_seq in I. lia.
    + intros j j' n1 n2 ks ks' m m' Q J J' I I'.
      apply nth_error_snoc in J. apply nth_error_snoc in J'.
      destruct J as [[J1 J2]|[-> J]]; [|destruct J' as [[J1' _]|[-> _]]; lia].
      pose proof (Lift _ _ J1 J2) as J3.
      destruct J' as [[J1' J2']|[-> J']].
      * exact (C j j' n1 n2 ks ks' m m' Q J3 (Lift _ _ J1' J2') I I').
      * injection J' as <- <-. apply (in_seq (S len0)) in I'.
        pose proof (C j (length brs0) n1 n ks (seq a0 len0) m a0 Q J3 Last I ltac:(apply in_seq; lia)). lia.
  - (* a new ending *)
    injection H as <-. unfold binv. cbn [b_brackets b_open b_num]. split; [|split; [discriminate|]].
    2:{ intros _. exists (b_brackets st), (length pre), 1. split; [reflexivity|]. rewrite LE. split; lia. }
    set (brs := b_brackets st) in *.
    split; [|split].
    + intros j n' ks J. apply nth_error_snoc in J. destruct J as [[J1 J2]|[-> J]].
      * destruct (A j n' ks J2) as (a & len & E & Hl & He & Hm & Ml & Mr).
        exists a, len. split; [exact E|]. split; [exact Hl|]. split; [lia|]. split; [|split].
        -- intros m Q. rewrite NL by lia. apply Hm. exact Q.
        -- destruct Ml as [Ml|Ml]; [left; exact Ml|right]. rewrite NL by lia. exact Ml.
        -- right. destruct (Nat.eq_dec (a + len) (length pre)) as [Q|Q].
           ++ rewrite Q, NE. destruct (Reach j n' ks a len J2 E Hl Q Hm) as (_ & -> & _). congruence.
           ++ rewrite NL by lia. destruct Mr as [Mr|Mr]; [lia|exact Mr].
      * injection J as <- <-. exists (length pre), 1. split; [reflexivity|]. split; [lia|]. split; [lia|]. split; [|split].
        -- intros m Q. replace m with (length pre) by lia. exact NE.
        -- destruct (Nat.eq_dec (length pre) 0) as [Q|Q]; [left; exact Q|right]. rewrite NL by lia. intros X.
           destruct (B _ _ X) as (j & ks & J & I). destruct (A j n ks J) as (a & len & E & Hl & He & Hm & Ml & Mr).
           rewrite E in I. apply in_seq in I.
           destruct (Reach j n ks a len J E Hl ltac:(lia) Hm) as (_ & Y & _). congruence.
        -- left. lia.
    + intros m n' Q. destruct (Nat.eq_dec m (length pre)) as [->|X].
      * rewrite NE in Q. injection Q as <-. exists (length brs), [length pre].
        rewrite nth_error_app2, Nat.sub_diag by lia. split; [reflexivity|]. left. reflexivity.
      * assert (Q' : nth m pre None = Some n').
        { destruct (Nat.lt_ge_cases m (length pre)) as [Y|Y]; [rewrite NL in Q by exact Y; exact Q|].
          rewrite nth_overflow in Q by lia. discriminate. }
        destruct (B m n' Q') as (j & ks & J & I). exists j, ks. split; [|exact I].
        rewrite nth_error_app1; [exact J|]. apply nth_error_Some. rewrite J. discriminate.
    + intros j j' n1 n2 ks ks' m m' Q J J' I I'.
      apply nth_error_snoc in J. apply nth_error_snoc in J'.
      destruct J as [[J1 J2]|[-> J]]; [|destruct J' as [[J1' _]|[-> _]]; lia].
      destruct J' as [[J1' J2']|[-> J']].
      * exact (C j j' n1 n2 ks ks' m m' Q J2 J2' I I').
      * injection J' as <- <-. destruct I' as [<-|[]].
        destruct (A j n1 ks J2) as (a & len & -> & Hl & He & _). apply in_seq in I. lia.
Qed.

Lemma bracket_loop_ok es : forall pre st, (forall e, In e es -> e <> Some 0%N) -> binv pre st ->
  exists st', bracket_loop (length pre) es st = Some st' /\ binv (pre ++ es) st'.
Proof.
  induction es as [|e es IH]; intros pre st NZ I; [exists st; rewrite app_nil_r; auto|].
  cbn [bracket_loop]. assert (Q : exists st', bracket_step (length pre) e st = Some st').
  { destruct e as [n|]; cbn; [|eexists; reflexivity]. destruct (N.eqb_spec (b_num st) n) as [E|E]; cbn; [|eexists; reflexivity].
    destruct (b_open st) eqn:Op; [eexists; reflexivity|]. exfalso.
    destruct I as (_ & O1 & _). destruct (O1 Op) as [X _]. apply (NZ (Some n) (or_introl eq_refl)). congruence. }
  destruct Q as (st' & Q). rewrite Q.
  destruct (IH (pre ++ [e]) st') as (st'' & L & I'').
  - intros x X. apply NZ. right. exact X.
  - apply (binv_step pre e st st'); [apply NZ; left; reflexivity|exact I|exact Q].
  - rewrite app_length in L. cbn in L. rewrite Nat.add_1_r in L. exists st''. split; [exact L|].
    rewrite <- app_assoc in I''. exact I''.
Qed.

Theorem brackets_spec es : (forall e, In e es -> e <> Some 0%N) ->
  exists st, bracket_loop 0 es (mkB 0 false []) = Some st /\ brackets_ok es (b_brackets st).
Proof.
  intros NZ. destruct (bracket_loop_ok es [] (mkB 0 false []) NZ) as (st & L & I & _).
  - split; [|split; [intros _; split; [reflexivity|left; reflexivity]|discriminate]].
    split; [|split].
    + intros j n ks J. destruct j; discriminate.
    + intros m n H. destruct m; discriminate.
    + intros j j' n n' ks ks' m m' _ J. destruct j; discriminate.
  - exists st. split; [exact L|exact I].
Qed.

(** ** The first line of a measure *)

Lemma first_spined_lt rest : forall i, 1 <= i -> first_spined i rest < i + length rest.
Proof.
  induction rest as [|l r IH]; intros i I; cbn; [lia|]. destruct (hasSpines l); [lia|].
  specialize (IH (S i) ltac:(lia)). lia.
Qed.
Lemma measure_loop_starts f : forall lines L s e, In (s, e) (measure_loop f lines L) -> s < length lines.
Proof.
  induction f as [|f IH]; intros lines L s e I; [destruct I|]. cbn [measure_loop] in I.
  destruct (Nat.ltb_spec L (length lines - 1)) as [Q|Q]; [|destruct I].
  unfold measureKey in I. destruct (measureEndLineIndex lines L <? 0)%Z; [eapply IH; exact I|].
  destruct I as [I|I]; [|eapply IH; exact I]. injection I as <- _.
  unfold repositionStartIndex. set (x := if existsb isDataLine (firstn (S L) lines) then L else 0).
  assert (X : x < length lines) by (unfold x; destruct (existsb _ _); lia). clearbody x.
  destruct (nth x lines []); [|exact X].
  pose proof (first_spined_lt (skipn (S x) lines) (S x) ltac:(lia)) as Y. rewrite skipn_length in Y. lia.
Qed.
Lemma imported_starts lines ms s e : importedMeasures lines = Some ms -> In (s, e) ms -> s < length lines.
Proof.
  unfold importedMeasures. destruct (analyzeSpines lines) as [[infos fin]|]; [|discriminate].
  destruct (staffStarts lines (s_tracks fin)) as [|t ts]; intros H I; injection H as <-; [destruct I|].
  apply filter_In in I. destruct I as [I _]. eapply measure_loop_starts. exact I.
Qed.
