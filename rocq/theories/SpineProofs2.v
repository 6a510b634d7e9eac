(** More proofs about the spine analysis: splitting and merging, the token
    graph, tracks. *)
From Verif Require Import PyStr PyStrProofs LayoutModel TextModel SpineModel SpineProofs.

(** ** Splitting and merging one spine *)
Definition plain (t : str) : Prop := ~ In t manipulators /\ starts_with (S_ "**") t = false.

Lemma kind_plain t : plain t -> kind t = KPlain.
Proof.
  intros [H1 H2]. destruct (kind_one t H1) as [K|K]; [|exact K].
  pose proof (kind_spec t) as X. rewrite K in X. unfold isExclusiveInterpretation in X. destruct X. congruence.
Qed.

Lemma nth_skipn_cons {A} (d : A) l : forall i, i < length l -> skipn i l = nth i l d :: skipn (S i) l.
Proof.
  induction l as [|x l IH]; intros [|i] H; cbn [length] in H; try lia; [reflexivity|].
  cbn [skipn nth]. rewrite IH by lia. reflexivity.
Qed.

Lemma adjust_plain ln dt si left ts : Forall plain left -> forall i s,
  a_skip s = false -> a_merge s = 0 -> i + length left <= length dt -> i + length left <= length si ->
  adjust_loop ln dt si (left ++ ts) i s =
  adjust_loop ln dt si ts (i + length left)
    (mkAdj false 0 (a_type s ++ firstn (length left) (skipn i dt))
       (a_info s ++ firstn (length left) (skipn i si)) (a_tracks s)).
Proof.
  induction 1 as [|t left Ht _ IH]; intros i s Hs Hm Hd Hi.
  - cbn [app length firstn]. rewrite !app_nil_r, Nat.add_0_r. destruct s as [sk mc ty nf tk]; cbn [a_skip a_merge] in *; subst; reflexivity.
  - cbn [app length] in *. rewrite adjust_cons by assumption. unfold adjust_token. rewrite kind_plain by assumption.
    cbv beta iota zeta. rewrite IH; cbn [a_skip a_merge a_type a_info a_tracks]; auto; try lia.
    replace (S i + length left) with (i + S (length left)) by lia.
    rewrite (@nth_skipn_cons str [] dt i), (@nth_skipn_cons str [] si i) by lia. cbn [firstn].
    rewrite <- !app_assoc. reflexivity.
Qed.

Lemma firstn_skipn_mid {A} (a b c : list A) n :
  n = length a -> firstn (length b) (skipn n (a ++ b ++ c)) = b.
Proof.
  intros ->. rewrite skipn_app, skipn_all, Nat.sub_diag. cbn [app skipn].
  rewrite firstn_app, firstn_all, Nat.sub_diag. cbn [firstn]. apply app_nil_r.
Qed.

Lemma plain_manip toks : Forall plain toks -> existsb isManipulatorToken toks = false.
Proof.
  induction 1 as [|t l H _ IH]; [reflexivity|]. cbn [existsb]. unfold isManipulatorToken at 1.
  rewrite kind_plain by assumption. exact IH.
Qed.

Lemma firstn_prefix {A} (a b : list A) n : n = length a -> firstn n (a ++ b) = a.
Proof. intros ->. rewrite firstn_app, firstn_all, Nat.sub_diag. cbn [firstn]. apply app_nil_r. Qed.
Lemma skipn_prefix {A} (a b : list A) n : n = length a -> skipn n (a ++ b) = b.
Proof. intros ->. rewrite skipn_app, skipn_all, Nat.sub_diag. reflexivity. Qed.
Lemma nth_prefix {A} (d : A) (a b : list A) n k : n = length a -> nth (k + n) (a ++ b) d = nth k b d.
Proof. intros ->. rewrite app_nth2 by lia. f_equal. lia. Qed.

Lemma nth_at {A} (d x : A) (a b : list A) n : n = length a -> nth n (a ++ x :: b) d = x.
Proof. intros ->. rewrite app_nth2 by lia. rewrite Nat.sub_diag. reflexivity. Qed.

Lemma split_line ln left right d1 d d2 f1 f f2 tr :
  Forall plain left -> Forall plain right ->
  length d1 = length left -> length f1 = length left -> length d2 = length right -> length f2 = length right ->
  spine_line ln (left ++ [S_ "*^"] ++ right) (mkS (d1 ++ d :: d2) (f1 ++ f :: f2) tr) =
  Some (mkS (d1 ++ d :: d :: d2)
            (f1 ++ (S_ "(" ++ f ++ S_ ")a") :: (S_ "(" ++ f ++ S_ ")b") :: f2) tr).
Proof.
  intros Hl Hr Ld1 Lf1 Ld2 Lf2. unfold spine_line. cbn [s_type].
  replace (length (d1 ++ d :: d2) =? length (left ++ [S_ "*^"] ++ right)) with true.
  2:{ symmetry. apply Nat.eqb_eq. rewrite !app_length. cbn [length]. lia. }
  cbn [negb]. rewrite existsb_app. cbn [app existsb]. change (isManipulatorToken (S_ "*^")) with true.
  cbn [orb]. rewrite orb_true_r. cbn iota.
  unfold adjustSpines. cbn [s_type s_info s_tracks].
  rewrite adjust_plain; cbn [a_skip a_merge]; auto; try (rewrite app_length; lia).
  cbn [skipn a_type a_info a_tracks]. rewrite !firstn_prefix by lia.
  rewrite adjust_cons by reflexivity. unfold adjust_token. change (kind (S_ "*^")) with KSplit.
  cbv beta iota zeta. cbn [a_type a_info a_tracks a_merge].
  assert (N1 : nth (0 + length left) (d1 ++ d :: d2) [] = d) by (apply nth_at; lia).
  assert (N2 : nth (0 + length left) (f1 ++ f :: f2) [] = f) by (apply nth_at; lia).
  rewrite N1, N2. rewrite <- (app_nil_r right) at 1.
  rewrite adjust_plain; cbn [a_skip a_merge]; auto; try (rewrite app_length; cbn [length]; lia).
  cbn [a_type a_info a_tracks adjust_loop].
  replace (S (0 + length left)) with (1 + length left) by lia.
  replace (skipn (1 + length left) (d1 ++ d :: d2)) with d2.
  2:{ change (d :: d2) with ([d] ++ d2). rewrite app_assoc. rewrite skipn_prefix; [reflexivity|].
      rewrite app_length. cbn [length]. lia. }
  replace (skipn (1 + length left) (f1 ++ f :: f2)) with f2.
  2:{ change (f :: f2) with ([f] ++ f2). rewrite app_assoc. rewrite skipn_prefix; [reflexivity|].
      rewrite app_length. cbn [length]. lia. }
  replace (length right) with (length d2) at 1 by lia. rewrite firstn_all.
  replace (length right) with (length f2) by lia. rewrite firstn_all.
  cbn [app]. rewrite <- !app_assoc. reflexivity.
Qed.

(** A line that merges [k] adjacent spines. *)
Lemma merge_line ln left right k d1 d ds d2 f1 fs f2 lab tr :
  2 <= k -> Forall plain left -> Forall plain right ->
  length d1 = length left -> length f1 = length left -> length d2 = length right -> length f2 = length right ->
  S (length ds) = k -> length fs = k ->
  getMergedSpineInfo (f1 ++ fs ++ f2) (length left) (k - 1) = Some lab ->
  spine_line ln (left ++ repeat (S_ "*v") k ++ right) (mkS (d1 ++ d :: ds ++ d2) (f1 ++ fs ++ f2) tr) =
  Some (mkS (d1 ++ d :: d2) (f1 ++ lab :: f2) tr).
Proof.
  intros Hk Hl Hr Ld1 Lf1 Ld2 Lf2 Lds Lfs HM. unfold spine_line. cbn [s_type].
  replace (length (d1 ++ d :: ds ++ d2) =? length (left ++ repeat (S_ "*v") k ++ right)) with true.
  2:{ symmetry. apply Nat.eqb_eq. rewrite !app_length. cbn [length]. rewrite app_length, repeat_length. lia. }
  cbn [negb]. rewrite existsb_app, existsb_app.
  replace (existsb isManipulatorToken (repeat (S_ "*v") k)) with true.
  2:{ destruct k; [lia|]. reflexivity. }
  cbn [orb]. rewrite orb_true_r. cbn iota.
  unfold adjustSpines. cbn [s_type s_info s_tracks].
  rewrite adjust_plain; cbn [a_skip a_merge]; auto; try (rewrite app_length; lia).
  cbn [skipn a_type a_info a_tracks]. rewrite !firstn_prefix by lia.
  rewrite adjust_merge; auto.
  2:{ destruct Hr as [|t r Ht _]; [discriminate|]. cbn [hd_error]. intros [= ->]. apply Ht.
      unfold manipulators. cbn [In]. auto. }
  rewrite Nat.add_0_l, HM. cbn [a_type a_info a_tracks].
  assert (N1 : nth (length left) (d1 ++ d :: ds ++ d2) [] = d) by (apply nth_at; lia).
  rewrite N1. rewrite <- (app_nil_r right) at 1.
  rewrite adjust_plain; cbn [a_skip a_merge]; auto; try (rewrite !app_length; cbn [length]; rewrite ?app_length; lia).
  cbn [a_type a_info a_tracks adjust_loop].
  replace (skipn (k + length left) (d1 ++ d :: ds ++ d2)) with d2.
  2:{ change (d :: ds ++ d2) with ((d :: ds) ++ d2). rewrite app_assoc. rewrite skipn_prefix; [reflexivity|].
      rewrite app_length. cbn [length]. lia. }
  replace (skipn (k + length left) (f1 ++ fs ++ f2)) with f2.
  2:{ rewrite app_assoc. rewrite skipn_prefix; [reflexivity|]. rewrite app_length. lia. }
  replace (length right) with (length d2) at 1 by lia. rewrite firstn_all.
  replace (length right) with (length f2) by lia. rewrite firstn_all.
  cbn [app]. rewrite <- !app_assoc. reflexivity.
Qed.

Definition half (c : ascii) (f : str) : str := S_ "(" ++ f ++ [")"%char; c].

Lemma half_length c f : length (half c f) = 3 + length f.
Proof. unfold half. rewrite !app_length. cbn. lia. Qed.
Lemma half_butlast c f : butlast (half c f) = S_ "(" ++ f ++ S_ ")".
Proof.
  unfold butlast. rewrite half_length. unfold half. cbn [S_ list_ascii_of_string app].
  replace (3 + length f - 1) with (S (S (length f))) by lia. rewrite firstn_cons. f_equal.
  rewrite firstn_app. rewrite firstn_all2 by lia. f_equal.
  replace (S (length f) - length f) with 1 by lia. reflexivity.
Qed.
Lemma half_strip c f : strip_label (half c f) = f.
Proof.
  unfold strip_label. rewrite half_length. unfold half. cbn [S_ list_ascii_of_string app].
  replace (3 + length f - 2) with (S (length f)) by lia. rewrite firstn_cons. cbn [skipn].
  rewrite firstn_app, firstn_all, Nat.sub_diag. cbn [firstn]. apply app_nil_r.
Qed.
Lemma half_inj c c' f f' : half c f = half c' f' -> c = c' /\ f = f'.
Proof.
  intros H. assert (f = f') by (rewrite <- (half_strip c f), H; apply half_strip). subst. split; [|reflexivity].
  unfold half in H. cbn [S_ list_ascii_of_string app] in H. injection H as H.
  apply app_inv_head in H. injection H as H. exact H.
Qed.

Lemma merge_two f1 f f2 n : n = length f1 ->
  getMergedSpineInfo (f1 ++ [half "a" f; half "b" f] ++ f2) n 1 = Some f.
Proof.
  intros ->. unfold getMergedSpineInfo. change (1 <? 1) with false. change (1 =? 1) with true. cbv iota.
  assert (N1 : nth (length f1) (f1 ++ [half "a" f; half "b" f] ++ f2) [] = half "a" f)
    by (apply nth_at; lia).
  assert (N2 : nth (S (length f1)) (f1 ++ [half "a" f; half "b" f] ++ f2) [] = half "b" f)
    by (exact (@nth_prefix str [] f1 ([half "a" f; half "b" f] ++ f2) (length f1) 1 eq_refl)).
  rewrite N1, N2, !half_butlast, str_eqb_refl, half_strip. reflexivity.
Qed.

(** ** Balanced blocks of splits and merges *)
(** [balanced n lines]: lines that start with [n] open spines, in which every
    split is followed, after a balanced block, by the merge of its two halves;
    other lines have no manipulators. *)
Inductive balanced : nat -> list str -> Prop :=
| bal_nil n : balanced n []
| bal_global n l ls : hasSpines l = false -> balanced n ls -> balanced n (l :: ls)
| bal_line n l ls : hasSpines l = true -> length (tokens l) = n -> Forall plain (tokens l) ->
    balanced n ls -> balanced n (l :: ls)
| bal_split p q s m inner ls left right left' right' :
    hasSpines s = true -> hasSpines m = true ->
    tokens s = left ++ [S_ "*^"] ++ right -> tokens m = left' ++ [S_ "*v"; S_ "*v"] ++ right' ->
    length left = p -> length left' = p -> length right = q -> length right' = q ->
    Forall plain left -> Forall plain right -> Forall plain left' -> Forall plain right' ->
    balanced (p + 2 + q) inner -> balanced (p + 1 + q) ls ->
    balanced (p + 1 + q) (s :: inner ++ m :: ls).

Lemma spine_lines_app ls1 : forall ln st infos st' ls2,
  spine_lines ln ls1 st = Some (infos, st') ->
  spine_lines ln (ls1 ++ ls2) st =
    match spine_lines (ln + length ls1) ls2 st' with
    | None => None
    | Some (i2, fin) => Some (infos ++ i2, fin)
    end.
Proof.
  induction ls1 as [|l ls IH]; intros ln st infos st' ls2 H.
  - cbn [spine_lines] in H. injection H as <- <-. cbn [app length]. rewrite Nat.add_0_r.
    destruct (spine_lines ln ls2 st) as [[? ?]|]; reflexivity.
  - cbn [spine_lines app length] in *. replace (ln + S (length ls)) with (S ln + length ls) by lia.
    destruct (isGlobalLine l); [apply IH; exact H|].
    destruct (spine_line ln (tokens l) st) as [st1|]; [|discriminate].
    destruct (spine_lines (S ln) ls st1) as [[i1 f1]|] eqn:E; [|discriminate]. injection H as <- <-.
    rewrite (IH _ _ _ _ _ E). destruct (spine_lines _ ls2 f1) as [[? ?]|]; reflexivity.
Qed.

Lemma split_at {A} (l : list A) p q : length l = p + 1 + q ->
  exists a x b, l = a ++ x :: b /\ length a = p /\ length b = q.
Proof.
  intros H. exists (firstn p l). destruct (skipn p l) as [|x b] eqn:E.
  - assert (length (skipn p l) = 0) by (rewrite E; reflexivity). rewrite skipn_length in *. lia.
  - exists x, b. rewrite <- E, firstn_skipn. split; [reflexivity|].
    assert (length (skipn p l) = S (length b)) by (rewrite E; reflexivity).
    rewrite skipn_length in *. rewrite firstn_length. lia.
Qed.

Theorem balanced_restores n lines : balanced n lines -> forall ln st,
  length (s_type st) = n -> length (s_info st) = n ->
  exists infos, spine_lines ln lines st = Some (infos, st).
Proof.
  induction 1 as [n|n l ls Hg _ IH|n l ls Hs Hn Hp _ IH
    |p q s m inner ls left right left' right' Hs Hm Ts Tm Ll Ll' Lr Lr' Pl Pr Pl' Pr' _ IHi _ IHl];
    intros ln st Lt Li.
  - exists []. reflexivity.
  - unfold hasSpines in Hg. cbn [spine_lines]. destruct (isGlobalLine l); [|discriminate]. apply IH; assumption.
  - unfold hasSpines in Hs. cbn [spine_lines]. destruct (isGlobalLine l); [discriminate|].
    unfold spine_line. rewrite Lt, Hn, Nat.eqb_refl. cbn [negb]. rewrite plain_manip by assumption.
    destruct (IH (S ln) st Lt Li) as (infos & ->). eauto.
  - unfold hasSpines in Hs, Hm. destruct (isGlobalLine s) eqn:Gs; [discriminate|].
    destruct (isGlobalLine m) eqn:Gm; [discriminate|].
    destruct st as [dt si tr]. cbn [s_type s_info] in Lt, Li.
    destruct (split_at _ _ _ Lt) as (d1 & d & d2 & -> & Ld1 & Ld2).
    destruct (split_at _ _ _ Li) as (f1 & f & f2 & -> & Lf1 & Lf2).
    cbn [spine_lines]. rewrite Gs, Ts.
    rewrite (split_line ln left right d1 d d2 f1 f f2 tr) by (auto; lia).
    set (st1 := mkS _ _ _).
    destruct (IHi (S ln) st1) as (i1 & E1).
    { unfold st1. cbn [s_type]. rewrite app_length. cbn [length]. lia. }
    { unfold st1. cbn [s_info]. rewrite app_length. cbn [length]. lia. }
    rewrite (spine_lines_app _ _ _ _ _ _ E1). cbn [spine_lines]. rewrite Gm, Tm.
    unfold st1.
    change (S_ "(" ++ f ++ S_ ")a") with (half "a" f). change (S_ "(" ++ f ++ S_ ")b") with (half "b" f).
    change [S_ "*v"; S_ "*v"] with (repeat (S_ "*v") 2).
    change (d1 ++ d :: d :: d2) with (d1 ++ d :: [d] ++ d2).
    change (f1 ++ half "a" f :: half "b" f :: f2) with (f1 ++ [half "a" f; half "b" f] ++ f2).
    rewrite (merge_line _ left' right' 2 d1 d [d] d2 f1 [half "a" f; half "b" f] f2 f tr)
      by (auto; try lia; apply merge_two; lia).
    destruct (IHl (S (S ln + length inner)) (mkS (d1 ++ d :: d2) (f1 ++ f :: f2) tr)) as (i2 & E2);
      [exact Lt|exact Li|]. rewrite E2. eauto.
Qed.

(** ** Merging all the sub-spines of a spine at once *)
(** How a spine was split: a leaf is an open sub-spine. *)
Inductive splits := Open | Both (l r : splits).

(** The labels of the open sub-spines, left to right (the labels of
    adjustSpines, humdrumfilebase.py:1222-1226). *)
Fixpoint labels (X : str) (t : splits) : list str :=
  match t with
  | Open => [X]
  | Both l r => labels (S_ "(" ++ X ++ S_ ")a") l ++ labels (S_ "(" ++ X ++ S_ ")b") r
  end.
Fixpoint leaves (t : splits) : nat := match t with Open => 1 | Both l r => leaves l + leaves r end.

Lemma labels_length t : forall X, length (labels X t) = leaves t.
Proof. induction t as [|l IHl r IHr]; intros X; [reflexivity|]. cbn [labels leaves]. rewrite app_length. auto. Qed.
Lemma leaves_pos t : 1 <= leaves t.
Proof. induction t; cbn [leaves]; lia. Qed.

(** A pass merges the pairs of open halves, from left to right. *)
Fixpoint prune (t : splits) : splits :=
  match t with
  | Open => Open
  | Both l r => match prune l, r with Open, Open => Open | l', _ => Both l' (prune r) end
  end.

Lemma prune_le t : leaves (prune t) <= leaves t.
Proof.
  induction t as [|l IHl r IHr]; [reflexivity|]. cbn [prune].
  destruct (prune l) as [|l1 l2]; destruct r as [|r1 r2]; cbn [leaves] in *; try lia.
Qed.
Lemma prune_lt t : 2 <= leaves t -> leaves (prune t) < leaves t.
Proof.
  induction t as [|l IHl r IHr]; cbn [leaves]; [lia|]. intros _. cbn [prune].
  pose proof (prune_le l). pose proof (prune_le r).
  destruct l as [|l1 l2]; [cbn [prune]|].
  - destruct r as [|r1 r2]; cbn [leaves]; [lia|].
    pose proof (leaves_pos r1). pose proof (leaves_pos r2).
    cbn [leaves] in IHr. specialize (IHr ltac:(lia)). cbn [leaves]. lia.
  - pose proof (leaves_pos l1). pose proof (leaves_pos l2). cbn [leaves] in IHl. specialize (IHl ltac:(lia)).
    destruct (prune (Both l1 l2)); destruct r; cbn [leaves] in *; lia.
Qed.

Inductive desc (Y : str) : str -> Prop :=
| desc_self : desc Y Y
| desc_half c Z : desc Y Z -> desc Y (half c Z).

Lemma desc_len Y Z : desc Y Z -> length Y <= length Z.
Proof. induction 1; [lia|]. rewrite half_length. lia. Qed.

Lemma desc_eq Y1 Z : desc Y1 Z -> forall Y2, desc Y2 Z -> length Y1 = length Y2 -> Y1 = Y2.
Proof.
  induction 1 as [|c Z D IH]; intros Y2 D2 L.
  - inversion D2; subst; [reflexivity|]. pose proof (desc_len _ _ H). rewrite half_length in L. lia.
  - remember (half c Z) as W eqn:E. destruct D2 as [|c' Z' D'].
    + subst. pose proof (desc_len _ _ D). rewrite half_length in L. lia.
    + apply half_inj in E. destruct E as [-> ->]. auto.
Qed.

Lemma labels_desc t : forall X Z, In Z (labels X t) -> desc X Z.
Proof.
  induction t as [|l IHl r IHr]; intros X Z H.
  - destruct H as [<-|[]]. constructor.
  - cbn [labels] in H. apply in_app_or in H.
    assert (G : forall c, desc (half c X) Z -> desc X Z).
    { clear. intros c D. remember (half c X) as Y. induction D; subst; [do 2 constructor|constructor; auto]. }
    destruct H as [H|H]; [apply IHl in H; apply (G "a"%char); exact H|apply IHr in H; apply (G "b"%char); exact H].
Qed.

(** Labels of a split spine are halves of descendants. *)
Lemma labels_half t X Z : In Z (labels X t) -> t = Open /\ Z = X \/
  exists c Z', Z = half c Z' /\ desc X Z' /\ (t <> Open).
Proof.
  intros H. destruct t as [|l r]; [left; destruct H as [<-|[]]; auto|right].
  pose proof (labels_desc _ _ _ H) as D. destruct D as [|c Z' D'].
  - exfalso. subst. cbn [labels] in H. apply in_app_or in H.
    destruct H as [H|H]; apply labels_desc, desc_len in H; rewrite !app_length in H; cbn in H; lia.
  - exists c, Z'. repeat split; auto. discriminate.
Qed.

Lemma labels_cons t X : exists x l, labels X t = x :: l.
Proof.
  destruct (labels X t) as [|x l] eqn:E; [|eauto].
  pose proof (labels_length t X) as L. rewrite E in L. pose proof (leaves_pos t). cbn [length] in L. lia.
Qed.

Lemma siblings X t u x y :
  In x (labels (half "a" X) t) -> In y (labels (half "b" X) u) ->
  butlast x = butlast y -> t = Open /\ u = Open.
Proof.
  intros Hx Hy E.
  assert (P : forall c t z, In z (labels (half c X) t) ->
     exists c' Z, z = half c' Z /\ (t = Open /\ Z = X \/ desc (half c X) Z)).
  { intros c t' z H. destruct (labels_half _ _ _ H) as [(-> & ->)|(c' & Z & -> & D & _)]; [eauto 8|].
    exists c', Z. auto. }
  destruct (P _ _ _ Hx) as (c1 & Z1 & -> & A). destruct (P _ _ _ Hy) as (c2 & Z2 & -> & B).
  rewrite !half_butlast in E. cbn [S_ list_ascii_of_string app] in E. injection E as E.
  apply app_inv_tail in E. subst Z2.
  destruct A as [(-> & ->)|A].
  - destruct B as [(-> & _)|B]; [auto|]. apply desc_len in B. rewrite half_length in B. lia.
  - destruct B as [(-> & ->)|B]; [apply desc_len in A; rewrite half_length in A; lia|].
    pose proof (desc_eq _ _ A _ B ltac:(rewrite !half_length; reflexivity)) as E.
    apply half_inj in E. destruct E. discriminate.
Qed.

Lemma nonempty_half c f : nonempty (half c f) = true.
Proof. reflexivity. Qed.

Lemma labels_nonempty t c X z : In z (labels (half c X) t) -> nonempty z = true.
Proof.
  intros H. destruct (labels_half _ _ _ H) as [(_ & ->)|(c' & Z & -> & _)]; apply nonempty_half.
Qed.

Definition is_open (t : splits) : bool := match t with Open => true | _ => false end.

Lemma filter_snoc (e : list str) c : nonempty c = true -> filter nonempty (e ++ [c]) = filter nonempty e ++ [c].
Proof. intros H. rewrite filter_app. cbn [filter]. rewrite H. reflexivity. Qed.

Lemma pass_labels t : forall X, exists x l, labels X t = x :: l /\ forall rest,
  exists e c, merge_pass x (l ++ rest) =
      (e ++ fst (merge_pass c rest), (2 <=? leaves t) || snd (merge_pass c rest)) /\
    filter nonempty e ++ [c] = labels X (prune t).
Proof.
  induction t as [|tl IHl tr IHr]; intros X.
  - exists X, []. split; [reflexivity|]. intros rest. exists [], X. cbn [app].
    destruct (merge_pass X rest) as [r b]. split; reflexivity.
  - destruct (IHl (half "a" X)) as (x & l & E1 & H1). destruct (IHr (half "b" X)) as (y & m & E2 & H2).
    exists x, (l ++ y :: m). split.
    { cbn [labels]. change (S_ "(" ++ X ++ S_ ")a") with (half "a" X). change (S_ "(" ++ X ++ S_ ")b") with (half "b" X).
      rewrite E1, E2. reflexivity. }
    intros rest. rewrite <- app_assoc. cbn [app].
    destruct (H1 (y :: m ++ rest)) as (e1 & c1 & M1 & F1). rewrite M1. clear M1.
    assert (B : (2 <=? leaves (Both tl tr)) = true).
    { apply Nat.leb_le. cbn [leaves]. pose proof (leaves_pos tl). pose proof (leaves_pos tr). lia. }
    rewrite B. cbn [orb].
    assert (C1 : In c1 (labels (half "a" X) (prune tl))) by (rewrite <- F1; apply in_or_app; right; left; reflexivity).
    assert (Y1 : In y (labels (half "b" X) tr)) by (rewrite E2; left; reflexivity).
    cbn [merge_pass]. destruct (str_eqb (butlast c1) (butlast y)) eqn:EQ.
    + apply str_eqb_eq in EQ. destruct (siblings _ _ _ _ _ C1 Y1 EQ) as (PO & ->).
      cbn [labels] in E2. injection E2 as <- <-. rewrite half_strip. cbn [app].
      exists (e1 ++ [[]]), X. destruct (merge_pass X rest) as [r b]. cbn [fst snd]. rewrite orb_true_r.
      split; [rewrite <- app_assoc; reflexivity|].
      cbn [prune]. rewrite PO in *. cbn [labels] in *. rewrite filter_app. cbn [filter nonempty]. rewrite app_nil_r.
      destruct (filter nonempty e1) as [|z zs]; [reflexivity|]. destruct zs; discriminate F1.
    + destruct (H2 rest) as (e2 & c2 & M2 & F2). rewrite M2.
      exists (e1 ++ c1 :: e2), c2. cbn [fst snd]. split.
      * f_equal; [rewrite <- app_assoc; reflexivity|].
        (* the pass simplified something: below a split there is a pair of halves *)
        cut (((2 <=? leaves tl) || (2 <=? leaves tr)) = true).
        { intros K. rewrite orb_assoc, K. reflexivity. }
        destruct tl as [|l1 l2].
        -- destruct tr as [|r1 r2].
           ++ exfalso. cbn [prune labels] in *. injection E2 as <- <-. destruct C1 as [<-|[]].
              rewrite !half_butlast, str_eqb_refl in EQ. discriminate.
           ++ cbn [leaves]. pose proof (leaves_pos r1). pose proof (leaves_pos r2).
              apply orb_true_iff. right. apply Nat.leb_le. lia.
        -- cbn [leaves]. pose proof (leaves_pos l1). pose proof (leaves_pos l2).
           apply orb_true_iff. left. apply Nat.leb_le. lia.
      * assert (PB : prune (Both tl tr) = Both (prune tl) (prune tr)).
        { cbn [prune]. destruct (prune tl) as [|p1 p2] eqn:PT; [|reflexivity]. destruct tr as [|r1 r2]; [|reflexivity].
          exfalso. cbn [labels] in *. destruct C1 as [<-|[]]. injection E2 as <- <-.
          rewrite !half_butlast, str_eqb_refl in EQ. discriminate. }
        rewrite PB. cbn [labels]. change (S_ "(" ++ X ++ S_ ")a") with (half "a" X).
        change (S_ "(" ++ X ++ S_ ")b") with (half "b" X).
        rewrite <- F1, <- F2. change (e1 ++ c1 :: e2) with (e1 ++ [c1] ++ e2).
        rewrite app_assoc, filter_app, filter_snoc by (eapply labels_nonempty; exact C1).
        rewrite !app_assoc. reflexivity.
Qed.

Lemma labels_all_nonempty t X : X <> [] -> filter nonempty (labels X t) = labels X t.
Proof.
  intros HX. assert (G : forall z, In z (labels X t) -> nonempty z = true).
  { intros z H. destruct (labels_half _ _ _ H) as [(_ & ->)|(c' & Z & -> & _)]; [destruct X; [contradiction|reflexivity]|apply nonempty_half]. }
  revert G. induction (labels X t) as [|x l IH]; intros G; [reflexivity|].
  cbn [filter]. rewrite G by (left; reflexivity). f_equal. apply IH. intros z Hz. apply G. right. exact Hz.
Qed.

Lemma pass_list_labels t X : X <> [] ->
  exists l, merge_pass_list (labels X t) = (l, 2 <=? leaves t) /\ filter nonempty l = labels X (prune t).
Proof.
  intros HX. destruct (pass_labels t X) as (x & l & E & H). destruct (H []) as (e & c & M & F).
  rewrite app_nil_r in M. rewrite E. cbn [merge_pass_list]. rewrite M.
  cbn [merge_pass fst snd]. eexists. split; [rewrite orb_false_r; reflexivity|].
  rewrite filter_snoc; [exact F|].
  pose proof (labels_all_nonempty (prune t) X HX) as L.
  assert (I : In c (labels X (prune t))) by (rewrite <- F; apply in_or_app; right; left; reflexivity).
  rewrite <- L in I. apply filter_In in I. apply I.
Qed.

Lemma merge_loop_labels X : X <> [] -> forall fuel t, leaves t <= fuel -> merge_loop fuel (labels X t) = [X].
Proof.
  intros HX. induction fuel as [|f IH]; intros t L; [pose proof (leaves_pos t); lia|].
  cbn [merge_loop]. rewrite labels_length.
  destruct (1 <? leaves t) eqn:E.
  - apply Nat.ltb_lt in E.
    destruct (pass_list_labels t X HX) as (l1 & M1 & F1). rewrite M1, F1.
    destruct (pass_list_labels (prune t) X HX) as (l2 & M2 & F2). rewrite M2, F2.
    replace (2 <=? leaves t) with true by (symmetry; apply Nat.leb_le; lia). cbn [orb].
    apply IH. pose proof (prune_lt t ltac:(lia)). pose proof (prune_le (prune t)). lia.
  - apply Nat.ltb_ge in E. destruct t as [|l r]; [reflexivity|].
    cbn [leaves] in E. pose proof (leaves_pos l). pose proof (leaves_pos r). lia.
Qed.

Theorem merge_labels t X f1 f2 n : X <> [] -> n = length f1 ->
  getMergedSpineInfo (f1 ++ labels X t ++ f2) n (leaves t - 1) = Some X.
Proof.
  intros HX ->. unfold getMergedSpineInfo. destruct (leaves t - 1 <? 1) eqn:E1.
  - apply Nat.ltb_lt in E1. destruct t as [|l r].
    + cbn [labels app]. f_equal. apply nth_at. lia.
    + cbn [leaves] in E1. pose proof (leaves_pos l). pose proof (leaves_pos r). lia.
  - apply Nat.ltb_ge in E1. destruct (leaves t - 1 =? 1) eqn:E2.
    + apply Nat.eqb_eq in E2. destruct t as [|l r]; [cbn in E1; lia|].
      cbn [leaves] in *. pose proof (leaves_pos l). pose proof (leaves_pos r).
      assert (Ol : l = Open).
      { destruct l as [|a b]; [reflexivity|]. cbn [leaves] in *. pose proof (leaves_pos a). pose proof (leaves_pos b). lia. }
      assert (Or : r = Open).
      { destruct r as [|a b]; [reflexivity|]. cbn [leaves] in *. pose proof (leaves_pos a). pose proof (leaves_pos b). lia. }
      subst. pose proof (merge_two f1 X f2 (length f1) eq_refl) as M.
      unfold getMergedSpineInfo in M. exact M.
    + rewrite skipn_prefix by reflexivity. replace (S (leaves t - 1)) with (length (labels X t)).
      2:{ rewrite labels_length. pose proof (leaves_pos t). lia. }
      rewrite firstn_app, firstn_all, Nat.sub_diag. cbn [firstn]. rewrite app_nil_r.
      rewrite merge_loop_labels by (try assumption; rewrite labels_length; lia). reflexivity.
Qed.
