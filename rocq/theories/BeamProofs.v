(** Proofs about beams. *)
From Coq Require Import Lia.
From Verif Require Import PyStr PyStrProofs BeamModel.

(** * Letters *)
Lemma count_char_rep c d n : count_char c (rep d n) = if Ascii.eqb c d then n else 0.
Proof.
  unfold count_char, rep. induction n as [|n IH]; cbn [repeat filter]; [destruct (Ascii.eqb c d); reflexivity|].
  destruct (Ascii.eqb c d) eqn:E; cbn [length]; rewrite IH; reflexivity.
Qed.

Lemma letters bs :
  count_char "L" (getHumdrumBeamString bs) = count_if is_start bs /\
  count_char "J" (getHumdrumBeamString bs) = count_if is_stop bs /\
  count_char "k" (getHumdrumBeamString bs) = count_if is_left bs /\
  count_char "K" (getHumdrumBeamString bs) = count_if is_right bs.
Proof.
  unfold getHumdrumBeamString. rewrite !count_char_app, !count_char_rep.
  cbn [Ascii.eqb Bool.eqb]. lia.
Qed.

(** * Running states are prefix sums *)
Definition plain_net (x : item) : Z := match x with Plain t => net t | _ => 0%Z end.
Definition grace_net (x : item) : Z := match x with Grace t => net t | _ => 0%Z end.

(** [sums a f xs]: running totals after each item, from [a]. *)
Fixpoint sums (a : Z) (f : item -> Z) (xs : list item) : list Z :=
  match xs with
  | [] => []
  | x :: xs' => (a + f x)%Z :: sums (a + f x) f xs'
  end.

Definition inv (st : bstate) : Prop :=
  b_lastb st = b_pb st /\ b_lastg st = b_pg st /\
  (b_first st = true -> b_pb st = 0%Z /\ b_pg st = 0%Z).

Lemma step_spec st x : inv st ->
  let '(st', o) := step st x in
  inv st' /\ b_first st' = false /\
  b_pb st' = (b_pb st + plain_net x)%Z /\ b_pg st' = (b_pg st + grace_net x)%Z /\
  o = (b_pb st', b_pg st') /\
  b_negb st' = b_negb st || (match x with Skipped => false | _ => (b_pb st' <? 0)%Z end) /\
  b_negg st' = b_negg st || (match x with Skipped => false | _ => (b_pg st' <? 0)%Z end).
Proof.
  destruct st as [first pb pg lb lg nb ng]. intros (H1 & H2 & H3). cbn in H1, H2, H3. subst lb lg.
  destruct x as [|t|t]; unfold step, inv; cbn [b_first b_pb b_pg b_lastb b_lastg b_negb b_negg plain_net grace_net].
  - rewrite !Z.add_0_r, !orb_false_r. repeat split; try reflexivity; try discriminate.
  - destruct first.
    + destruct (H3 eq_refl) as [-> ->]. cbn. repeat split; try reflexivity; discriminate.
    + repeat split; try reflexivity; try discriminate; try lia.
  - destruct first.
    + destruct (H3 eq_refl) as [-> ->]. cbn. rewrite ?Z.add_0_r.
      repeat split; try reflexivity; try discriminate.
    + repeat split; try reflexivity; try discriminate; try lia.
Qed.

Definition negs (ss : list Z) : bool := existsb (fun s => (s <? 0)%Z) ss.

Lemma states_spec xs : forall st, inv st ->
  ((b_pb st < 0)%Z -> b_negb st = true) -> ((b_pg st < 0)%Z -> b_negg st = true) ->
  let '(st', os) := states st xs in
  map fst os = sums (b_pb st) plain_net xs /\ map snd os = sums (b_pg st) grace_net xs /\
  b_negb st' = b_negb st || negs (map fst os) /\ b_negg st' = b_negg st || negs (map snd os).
Proof.
  induction xs as [|x xs IH]; intros st Hi Nb Ng.
  - cbn. rewrite !orb_false_r. repeat split.
  - cbn [states]. pose proof (step_spec st x Hi) as Sp. destruct (step st x) as [st1 o].
    destruct Sp as (I1 & _ & E1 & E2 & Eo & F1 & F2).
    assert (Nb1 : (b_pb st1 < 0)%Z -> b_negb st1 = true).
    { intros L. rewrite F1. destruct x; [|rewrite orb_true_iff; right; lia..].
      cbn in E1. rewrite Nb by lia. reflexivity. }
    assert (Ng1 : (b_pg st1 < 0)%Z -> b_negg st1 = true).
    { intros L. rewrite F2. destruct x; [|rewrite orb_true_iff; right; lia..].
      cbn in E2. rewrite Ng by lia. reflexivity. }
    specialize (IH st1 I1 Nb1 Ng1). destruct (states st1 xs) as [st2 os].
    destruct IH as (A & B & C & D). subst o. cbn [map fst snd sums negs existsb].
    rewrite A, B, <- E1, <- E2, C, D, A, B. unfold negs. rewrite F1, F2.
    split; [reflexivity|]. split; [reflexivity|].
    destruct x; cbn [plain_net grace_net] in E1, E2; [|split; rewrite !orb_assoc; reflexivity..].
    rewrite !orb_false_r. split.
    + destruct (b_pb st1 <? 0)%Z eqn:L; [|reflexivity]. rewrite Nb by lia. reflexivity.
    + destruct (b_pg st1 <? 0)%Z eqn:L; [|reflexivity]. rewrite Ng by lia. reflexivity.
Qed.

Lemma analyze_sums xs : xs <> [] ->
  analyzeLayerBeams xs =
    Some (finish (negs (sums 0 plain_net xs)) (sums 0 plain_net xs),
          finish (negs (sums 0 grace_net xs)) (sums 0 grace_net xs)).
Proof.
  intros H. unfold analyzeLayerBeams. destruct xs as [|x xs]; [contradiction|].
  pose proof (states_spec (x :: xs) b0) as Sp.
  destruct (states b0 (x :: xs)) as [st os].
  destruct Sp as (A & B & C & D).
  - unfold inv. repeat split.
  - cbn. lia.
  - cbn. lia.
  - cbn [b_pb b_pg b_negb b_negg b0 orb] in *. rewrite C, D, A, B. reflexivity.
Qed.

(** * Beam numbers *)
Lemma number_length ss : forall c prev, length (number c prev ss) = length ss.
Proof.
  induction ss as [|s ss IH]; intros c prev; [reflexivity|]. cbn.
  destruct (negb (s =? 0)%Z); cbn; [rewrite IH; reflexivity|].
  destruct prev as [p|]; [destruct (negb (p =? 0)%Z)|]; cbn; rewrite IH; reflexivity.
Qed.

Lemma number_range ss : forall c prev i, 1 <= c -> i < length ss ->
  nth i (number c prev ss) 0 = 0 \/ c <= nth i (number c prev ss) 0.
Proof.
  induction ss as [|s ss IH]; intros c prev i Hc Hi; [cbn in Hi; lia|]. cbn [number].
  cbn [length] in Hi.
  destruct (negb (s =? 0)%Z).
  - destruct i; cbn [nth]; [right; lia|apply IH; lia].
  - destruct prev as [p|]; [destruct (negb (p =? 0)%Z)|].
    + destruct i; cbn [nth]; [right; lia|]. destruct (IH (S c) (Some s) i); lia.
    + destruct i; cbn [nth]; [left; lia|apply IH; lia].
    + destruct i; cbn [nth]; [left; lia|apply IH; lia].
Qed.

Definition open_before (prev : option Z) (ss : list Z) (i : nat) : bool :=
  match i with
  | 0 => match prev with Some p => negb (p =? 0)%Z | None => false end
  | S i' => negb (nth i' ss 0 =? 0)%Z
  end.

Lemma number_zero ss : forall c prev i, 1 <= c -> i < length ss ->
  (nth i (number c prev ss) 0 = 0 <-> nth i ss 0%Z = 0%Z /\ open_before prev ss i = false).
Proof.
  induction ss as [|s ss IH]; intros c prev i Hc Hi; [cbn in Hi; lia|]. cbn [number].
  cbn [length] in Hi.
  assert (R : forall c' j, 1 <= c' -> j < length ss ->
    (nth j (number c' (Some s) ss) 0 = 0 <->
     nth j ss 0%Z = 0%Z /\ open_before prev (s :: ss) (S j) = false)).
  { intros c' j H1 H2. rewrite (IH c' (Some s) j H1 H2). destruct j; reflexivity. }
  destruct (s =? 0)%Z eqn:E; cbn [negb].
  - apply Z.eqb_eq in E. subst s.
    destruct prev as [p|]; [destruct (p =? 0)%Z eqn:Ep|]; cbn [negb];
      (destruct i; cbn [nth]; [cbn [open_before]; rewrite ?Ep; cbn [negb]|apply R; lia]).
    + tauto.
    + split; [lia|intros [_ ?]; discriminate].
    + tauto.
  - apply Z.eqb_neq in E. destruct i; cbn [nth]; [|apply R; lia].
    split; [lia|intros [? _]; contradiction].
Qed.

Lemma number_current ss : forall c s j, 1 <= c -> j < length ss -> s <> 0%Z ->
  (nth j (number c (Some s) ss) 0 = c <-> forall k, k < j -> nth k ss 0%Z <> 0%Z).
Proof.
  induction ss as [|x ss IH]; intros c s j Hc Hj Hs; [cbn in Hj; lia|]. cbn [number length] in *.
  replace (negb (s =? 0)%Z) with true by (symmetry; apply negb_true_iff, Z.eqb_neq, Hs).
  destruct (x =? 0)%Z eqn:E; cbn [negb].
  - apply Z.eqb_eq in E. subst x. destruct j; cbn [nth].
    + split; [intros _ k Hk; lia|reflexivity].
    + split.
      * intros H. destruct (number_range ss (S c) (Some 0%Z) j); lia.
      * intros H. exfalso. apply (H 0); [lia|reflexivity].
  - apply Z.eqb_neq in E. destruct j; cbn [nth].
    + split; [intros _ k Hk; lia|reflexivity].
    + rewrite (IH c x j) by (assumption || lia). split.
      * intros H [|k] Hk; cbn [nth]; [exact E|apply H; lia].
      * intros H k Hk. apply (H (S k)). lia.
Qed.

Lemma number_same ss : forall c prev i j, 1 <= c -> i < j -> j < length ss ->
  nth i (number c prev ss) 0 <> 0 ->
  (nth i (number c prev ss) 0 = nth j (number c prev ss) 0 <->
   forall k, i <= k < j -> nth k ss 0%Z <> 0%Z).
Proof.
  induction ss as [|s ss IH]; intros c prev i j Hc Hij Hj; [cbn in Hj; lia|].
  cbn [number length] in *. destruct j as [|j]; [lia|].
  assert (R : forall c' i', 1 <= c' -> i' < j -> nth i' (number c' (Some s) ss) 0 <> 0 ->
    (nth i' (number c' (Some s) ss) 0 = nth j (number c' (Some s) ss) 0 <->
     forall k, S i' <= k < S j -> nth k (s :: ss) 0%Z <> 0%Z)).
  { intros c' i' H1 H2 H3. rewrite (IH c' (Some s) i' j H1 H2) by (assumption || lia).
    split.
    - intros H [|k] Hk; [lia|]. cbn [nth]. apply H. lia.
    - intros H k Hk. apply (H (S k)). lia. }
  destruct (s =? 0)%Z eqn:E; cbn [negb].
  - apply Z.eqb_eq in E. subst s.
    destruct prev as [p|]; [destruct (p =? 0)%Z eqn:Ep|]; cbn [negb];
      (destruct i; cbn [nth]; [|apply R; lia]).
    + intros H. contradiction.
    + intros _. split.
      * intros H. destruct (number_range ss (S c) (Some 0%Z) j); lia.
      * intros H. exfalso. apply (H 0); [lia|reflexivity].
    + intros H. contradiction.
  - apply Z.eqb_neq in E. destruct i; cbn [nth]; [|apply R; lia].
    intros _. split.
    + intros H. symmetry in H. rewrite number_current in H by (assumption || lia).
      intros [|k] Hk; cbn [nth]; [exact E|apply H; lia].
    + intros H. symmetry. rewrite number_current by (assumption || lia).
      intros k Hk. apply (H (S k)). lia.
Qed.

(** * Sums of whole layers *)
Definition total (f : item -> Z) (xs : list item) : Z := fold_left (fun a x => a + f x)%Z xs 0%Z.

Lemma sums_length a f xs : length (sums a f xs) = length xs.
Proof. revert a. induction xs as [|x xs IH]; intros a; cbn; [|rewrite IH]; reflexivity. Qed.

Lemma fold_from f xs : forall a, fold_left (fun a x => a + f x)%Z xs a = (a + total f xs)%Z.
Proof.
  unfold total. induction xs as [|x xs IH]; intros a; cbn; [lia|].
  rewrite (IH (a + f x)%Z), (IH (f x)). lia.
Qed.

Lemma total_cons f x xs : total f (x :: xs) = (f x + total f xs)%Z.
Proof. unfold total at 1. cbn [fold_left]. rewrite fold_from. lia. Qed.

Lemma sums_nth f xs : forall a i, i < length xs ->
  nth i (sums a f xs) 0%Z = (a + total f (firstn (S i) xs))%Z.
Proof.
  induction xs as [|x xs IH]; intros a i Hi; [cbn in Hi; lia|]. cbn [length] in Hi.
  destruct i; cbn [sums nth].
  - cbn [firstn]. rewrite total_cons. unfold total. cbn. lia.
  - rewrite IH by lia. cbn [firstn]. rewrite (total_cons f x). cbn [firstn]. lia.
Qed.

Lemma sums_last f xs : forall a, xs <> [] -> last (sums a f xs) 0%Z = (a + total f xs)%Z.
Proof.
  induction xs as [|x xs IH]; intros a H; [contradiction|].
  destruct xs as [|y ys].
  - cbn [sums last]. rewrite total_cons. unfold total. cbn. lia.
  - change (sums a f (x :: y :: ys)) with ((a + f x)%Z :: sums (a + f x) f (y :: ys)).
    assert (L : last ((a + f x)%Z :: sums (a + f x) f (y :: ys)) 0%Z = last (sums (a + f x) f (y :: ys)) 0%Z)
      by reflexivity.
    rewrite L, IH by discriminate. rewrite (total_cons f x). lia.
Qed.

Lemma negs_false ss : negs ss = false <-> forall i, i < length ss -> (0 <= nth i ss 0)%Z.
Proof.
  unfold negs. induction ss as [|s ss IH]; cbn [existsb length].
  - split; [intros _ i Hi; lia|reflexivity].
  - rewrite orb_false_iff, IH. split.
    + intros [H1 H2] [|i] Hi; cbn [nth]; [lia|apply H2; lia].
    + intros H. split; [specialize (H 0); cbn in H; lia|].
      intros i Hi. apply (H (S i)). lia.
Qed.

(** [opened f xs i]: beams open just after item i. *)
Definition opened (f : item -> Z) (xs : list item) (i : nat) : Z := total f (firstn (S i) xs).
Definition balanced (f : item -> Z) (xs : list item) : Prop :=
  (forall i, i < length xs -> (0 <= opened f xs i)%Z) /\ total f xs = 0%Z.

Lemma finish_balanced f xs : xs <> [] -> balanced f xs ->
  finish (negs (sums 0 f xs)) (sums 0 f xs) = number 1 None (sums 0 f xs).
Proof.
  intros Hn [B1 B2]. unfold finish. rewrite sums_last by exact Hn. rewrite B2.
  replace (negs (sums 0 f xs)) with false; [reflexivity|]. symmetry. apply negs_false.
  rewrite sums_length. intros i Hi. rewrite sums_nth by exact Hi. apply B1, Hi.
Qed.

Lemma finish_unbalanced f xs : xs <> [] -> ~ balanced f xs ->
  finish (negs (sums 0 f xs)) (sums 0 f xs) = repeat 0 (length xs).
Proof.
  intros Hn B. unfold finish. rewrite sums_last by exact Hn.
  assert (Rp : forall l : list nat, map (fun _ => 0) l = repeat 0 (length l))
    by (induction l as [|y l IH]; cbn; [|rewrite IH]; reflexivity).
  destruct (negs (sums 0 f xs)) eqn:N; cbn [orb].
  - rewrite Rp, number_length, sums_length. reflexivity.
  - destruct (0 + total f xs =? 0)%Z eqn:T; cbn [negb].
    + exfalso. apply B. split; [|lia]. intros i Hi.
      rewrite negs_false, sums_length in N. specialize (N i Hi). rewrite sums_nth in N by exact Hi.
      exact N.
    + rewrite Rp, number_length, sums_length. reflexivity.
Qed.

Lemma balanced_numbers f xs : xs <> [] -> balanced f xs ->
  let nums := finish (negs (sums 0 f xs)) (sums 0 f xs) in
  length nums = length xs /\
  (forall i, i < length xs ->
     (nth i nums 0 = 0 <-> opened f xs i = 0%Z /\ (i = 0 \/ opened f xs (i - 1) = 0%Z))) /\
  (forall i j, i < j -> j < length xs -> nth i nums 0 <> 0 ->
     (nth i nums 0 = nth j nums 0 <-> forall k, i <= k < j -> opened f xs k <> 0%Z)).
Proof.
  intros Hn B nums. unfold nums. rewrite finish_balanced by assumption.
  split; [rewrite number_length, sums_length; reflexivity|]. split.
  - intros i Hi. rewrite number_zero by (rewrite ?sums_length; lia).
    rewrite sums_nth by exact Hi. change (total f (firstn (S i) xs)) with (opened f xs i).
    destruct i as [|i].
    + cbn [open_before]. intuition.
    + cbn [open_before]. rewrite sums_nth by lia.
      replace (S i - 1) with i by lia. unfold opened. rewrite !Z.add_0_l.
      split.
      * intros [H1 H2]. apply negb_false_iff, Z.eqb_eq in H2. auto.
      * intros [H1 [H2|H2]]; [lia|]. split; [exact H1|]. apply negb_false_iff, Z.eqb_eq, H2.
  - intros i j Hij Hj Hz. rewrite number_same by (rewrite ?sums_length; assumption || lia).
    split; intros H k Hk; specialize (H k Hk); rewrite sums_nth in * by lia; exact H.
Qed.

(** * Beams of notes, level by level *)
(** [lvl b l]: whether level [l] is open after a note with beams [b], given whether
    it was open before; [None] when the beams do not fit together. *)
Definition level_step (o : bool) (b : option beam) : option bool :=
  match o, b with
  | false, None => Some false
  | false, Some BStart => Some true
  | false, Some (BPartialLeft | BPartialRight | BPartialNone) => Some false
  | true, Some BContinue => Some true
  | true, Some BStop => Some false
  | _, _ => None
  end.

(** The open flags of all levels; a note with fewer beams than levels has none at
    the others. *)
Fixpoint fresh_levels (bs : list beam) : option (list bool) :=
  match bs with
  | [] => Some []
  | b :: bs' =>
      match level_step false (Some b), fresh_levels bs' with
      | Some o', Some r => Some (o' :: r)
      | _, _ => None
      end
  end.

Fixpoint note_step (os : list bool) (bs : list beam) : option (list bool) :=
  match os with
  | [] => fresh_levels bs
  | o :: os' =>
      match level_step o (hd_error bs), note_step os' (tl bs) with
      | Some o', Some r => Some (o' :: r)
      | _, _ => None
      end
  end.

Fixpoint run_notes (os : list bool) (notes : list (list beam)) : option (list bool) :=
  match notes with
  | [] => Some os
  | n :: notes' => match note_step os n with Some os' => run_notes os' notes' | None => None end
  end.

Definition open_levels (os : list bool) : nat := length (filter (fun o => o) os).

Lemma note_step_open bs : forall os os', note_step os bs = Some os' ->
  (Z.of_nat (open_levels os') =
   Z.of_nat (open_levels os) + Z.of_nat (count_if is_start bs) - Z.of_nat (count_if is_stop bs))%Z.
Proof.
  unfold open_levels. intros os. revert bs. induction os as [|o os IH]; intros bs os' H; cbn [note_step] in H.
  - revert os' H. induction bs as [|b bs IHb]; intros os' H; cbn [fresh_levels] in H; [injection H as <-; reflexivity|].
    destruct (level_step false (Some b)) as [o'|] eqn:E; [|discriminate].
    destruct (fresh_levels bs) as [r|] eqn:E2; [|discriminate]. injection H as <-.
    specialize (IHb _ eq_refl). cbn [filter length] in IHb.
    destruct b; cbn in E; try discriminate; injection E as <-;
      cbn [filter length count_if is_start is_stop]; lia.
  - destruct (level_step o (hd_error bs)) as [o'|] eqn:E; [|discriminate].
    destruct (note_step os (tl bs)) as [r|] eqn:E2; [|discriminate]. injection H as <-.
    specialize (IH _ _ E2).
    destruct o, bs as [|b bs]; try destruct b; cbn in E; try discriminate; injection E as <-;
      cbn [filter length count_if is_start is_stop tl] in *; lia.
Qed.

(** A written note: its beam letters among other text without beam letters. *)
Definition no_beam_letters (s : str) : Prop := char_in "L" s = false /\ char_in "J" s = false.

Lemma net_note a z bs : no_beam_letters a -> no_beam_letters z ->
  net (a ++ getHumdrumBeamString bs ++ z)
  = (Z.of_nat (count_if is_start bs) - Z.of_nat (count_if is_stop bs))%Z.
Proof.
  intros [A1 A2] [Z1 Z2]. unfold net. rewrite !count_char_app.
  destruct (letters bs) as (L & J & _ & _). rewrite L, J.
  rewrite (count_char_not_in _ _ A1), (count_char_not_in _ _ A2),
          (count_char_not_in _ _ Z1), (count_char_not_in _ _ Z2). lia.
Qed.

Lemma run_notes_firstn notes : forall os os' i, run_notes os notes = Some os' ->
  exists os'', run_notes os (firstn i notes) = Some os''.
Proof.
  induction notes as [|n notes IH]; intros os os' i H.
  - rewrite firstn_nil. eauto.
  - destruct i; cbn [firstn run_notes]; [eauto|]. cbn [run_notes] in H.
    destruct (note_step os n) as [os1|]; [|discriminate]. eapply IH, H.
Qed.
