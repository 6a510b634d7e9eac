(** Lemmas about the exporter's measures. *)
From Verif Require Import MeasureModel PyStrProofs.
From Coq Require Import QArith Sorting.Sorted Lia.
Local Close Scope Q_scope.

Lemma qlt_iff a b : qlt a b = true <-> (a < b)%Q.
Proof.
  unfold qlt. rewrite negb_true_iff. split.
  - intros H. destruct (Qlt_le_dec a b) as [L|L]; [exact L|]. apply Qle_bool_iff in L. congruence.
  - intros H. destruct (Qle_bool b a) eqn:E; [|reflexivity]. apply Qle_bool_iff in E.
    destruct (Qle_not_lt _ _ E H).
Qed.
Lemma qlt_false a b : qlt a b = false <-> (b <= a)%Q.
Proof. unfold qlt. rewrite negb_false_iff. apply Qle_bool_iff. Qed.
Lemma qeq_iff a b : Qeq_bool a b = true <-> (a == b)%Q.
Proof. split; [apply Qeq_bool_eq|apply Qeq_eq_bool]. Qed.
Lemma qeq_false a b : Qeq_bool a b = false <-> ~ (a == b)%Q.
Proof.
  split; [apply Qeq_bool_neq|]. intros H. destruct (Qeq_bool a b) eqn:E; [|reflexivity].
  apply Qeq_bool_eq in E. contradiction.
Qed.
Ltac qb := repeat
  match goal with
  | H : qlt _ _ = true |- _ => apply qlt_iff in H
  | H : qlt _ _ = false |- _ => apply qlt_false in H
  | H : Qeq_bool _ _ = true |- _ => apply qeq_iff in H
  | H : Qeq_bool _ _ = false |- _ => apply qeq_false in H
  | H : Qle_bool _ _ = true |- _ => apply Qle_bool_iff in H
  | H : _ && _ = true |- _ => apply andb_true_iff in H; destruct H
  end.

Lemma q_lt_of_le_ne a b : (a <= b)%Q -> ~ (a == b)%Q -> (a < b)%Q.
Proof. intros L N. apply Qle_lteq in L. destruct L; [assumption|contradiction]. Qed.

Lemma slicetype_eqb_eq a b : slicetype_eqb a b = true <-> a = b.
Proof. split; [destruct a, b; cbn; congruence|intros ->; destruct b; reflexivity]. Qed.
Lemma is_type_eq ty s : is_type ty s = true <-> sl_type s = ty.
Proof. apply slicetype_eqb_eq. Qed.

Lemma place_eqb_eq a b : place_eqb a b = true <-> a = b.
Proof.
  split.
  - destruct a, b; cbn; try discriminate; rewrite ?andb_true_iff, ?Nat.eqb_eq; intuition congruence.
  - intros ->. destruct b; cbn; rewrite ?Nat.eqb_refl; reflexivity.
Qed.

(** ** Time order *)

(** Any two lines, the first before the second, are at times in this order. *)
Definition in_time_order (l : list slice) : Prop :=
  forall a x b y c, l = a ++ x :: b ++ y :: c -> (sl_ts x <= sl_ts y)%Q.

Definition tsle (x y : slice) : Prop := (sl_ts x <= sl_ts y)%Q.

Lemma in_time_order_sorted l : in_time_order l <-> StronglySorted tsle l.
Proof.
  split.
  - induction l as [|x l IH]; intros H; constructor.
    + apply IH. intros a u b v c E. apply (H (x :: a) u b v c). rewrite E. reflexivity.
    + apply Forall_forall. intros y I. apply in_split in I. destruct I as (b & c & E).
      apply (H [] x b y c). rewrite E. reflexivity.
  - intros S a x b y c E. subst l. induction a as [|z a IH].
    + inversion S as [|? ? ? F]; subst. rewrite Forall_forall in F. apply F.
      apply in_or_app. right. left. reflexivity.
    + inversion S; subst. auto.
Qed.

Lemma sorted_app (a b : list slice) : StronglySorted tsle (a ++ b) <->
  StronglySorted tsle a /\ StronglySorted tsle b /\ (forall x y, In x a -> In y b -> tsle x y).
Proof.
  induction a as [|x a IH]; cbn [app].
  - split; [intros S; repeat split; [constructor|exact S|intros ? ? []]|intros (_ & S & _); exact S].
  - split.
    + intros S. inversion S as [|? ? S' F]; subst. apply IH in S'. destruct S' as (A & B & C).
      rewrite Forall_app in F. destruct F as (F1 & F2). split; [constructor; assumption|]. split; [exact B|].
      intros u v [->|I] J; [|auto]. rewrite Forall_forall in F2. auto.
    + intros (A & B & C). inversion A as [|? ? A' F]; subst. constructor.
      * apply IH. split; [exact A'|]. split; [exact B|]. intros u v I J. apply C; [right; exact I|exact J].
      * apply Forall_app. split; [exact F|]. apply Forall_forall. intros v J. apply C; [left; reflexivity|exact J].
Qed.

Lemma sorted_insert (a b : list slice) n : StronglySorted tsle (a ++ n :: b) <->
  StronglySorted tsle (a ++ b) /\ (forall x, In x a -> (sl_ts x <= sl_ts n)%Q) /\ (forall x, In x b -> (sl_ts n <= sl_ts x)%Q).
Proof.
  rewrite !sorted_app. split.
  - intros (A & B & C). inversion B as [|? ? B' F]; subst. rewrite Forall_forall in F.
    split; [|split].
    + split; [exact A|]. split; [exact B'|]. intros x y I J. apply C; [exact I|right; exact J].
    + intros x I. apply C; [exact I|left; reflexivity].
    + intros x I. apply F. exact I.
  - intros ((A & B & C) & D & E). split; [exact A|]. split.
    + constructor; [exact B|]. apply Forall_forall. exact E.
    + intros x y I [<-|J]; [apply D; exact I|apply C; assumption].
Qed.

(** A sorted list split at a time. *)
Lemma time_split t l : StronglySorted tsle l -> exists lo eq hi, l = lo ++ eq ++ hi
  /\ (forall x, In x lo -> (sl_ts x < t)%Q) /\ (forall x, In x eq -> (sl_ts x == t)%Q)
  /\ (forall x, In x hi -> (t < sl_ts x)%Q).
Proof.
  induction l as [|x l IH]; intros H.
  - exists [], [], []. repeat split; intros ? [].
  - inversion H as [|? ? H' F]; subst. destruct (IH H') as (lo & eq & hi & E & A & B & C).
    rewrite Forall_forall in F. unfold tsle in F.
    destruct (Q_dec (sl_ts x) t) as [[L|G]|Q].
    + exists (x :: lo), eq, hi. rewrite E. split; [reflexivity|]. split; [|auto]. intros y [<-|I]; auto.
    + exists [], [], (x :: l). split; [reflexivity|]. split; [intros ? []|]. split; [intros ? []|].
      intros y [<-|I]; [exact G|]. eapply Qlt_le_trans; [exact G|auto].
    + assert (L0 : lo = []).
      { destruct lo as [|y lo]; [reflexivity|]. exfalso. specialize (A y (or_introl eq_refl)).
        assert (I : In y l) by (rewrite E; left; reflexivity). specialize (F y I). rewrite Q in F.
        exact (Qle_not_lt _ _ F A). }
      subst lo. exists [], (x :: eq), hi. rewrite E. split; [reflexivity|]. split; [intros ? []|].
      split; [|exact C]. intros y [<-|I]; auto.
Qed.

Lemma insert_at_app {A} (a b : list A) x : insert_at (length a) x (a ++ b) = a ++ x :: b.
Proof.
  unfold insert_at. rewrite firstn_app, skipn_app, Nat.sub_diag, firstn_all, skipn_all. cbn.
  rewrite app_nil_r. reflexivity.
Qed.

Lemma insert_at_split {A} i (x : A) l : i <= length l -> exists a b, l = a ++ b /\ length a = i /\ insert_at i x l = a ++ x :: b.
Proof.
  intros H. exists (firstn i l), (skipn i l). split; [symmetry; apply firstn_skipn|].
  split; [apply firstn_length_le; exact H|]. reflexivity.
Qed.

(** A new line among the lines of its own time. *)
Lemma insert_between lo eq hi n k :
  StronglySorted tsle (lo ++ eq ++ hi) ->
  (forall x, In x lo -> (sl_ts x < sl_ts n)%Q) -> (forall x, In x eq -> (sl_ts x == sl_ts n)%Q) ->
  (forall x, In x hi -> (sl_ts n < sl_ts x)%Q) ->
  length lo <= k <= length lo + length eq ->
  StronglySorted tsle (insert_at k n (lo ++ eq ++ hi)).
Proof.
  intros S A B C K.
  assert (E : exists e1 e2, eq = e1 ++ e2 /\ length e1 = k - length lo).
  { exists (firstn (k - length lo) eq), (skipn (k - length lo) eq). split; [symmetry; apply firstn_skipn|].
    apply firstn_length_le. lia. }
  destruct E as (e1 & e2 & -> & L).
  replace (lo ++ (e1 ++ e2) ++ hi) with ((lo ++ e1) ++ (e2 ++ hi)) in * by (rewrite !app_assoc; reflexivity).
  replace k with (length (lo ++ e1)) by (rewrite app_length; lia).
  rewrite insert_at_app. apply sorted_insert. split; [exact S|]. split.
  - intros x I. apply in_app_or in I. destruct I as [I|I]; [apply Qlt_le_weak; auto|].
    rewrite (B x); [apply Qle_refl|apply in_or_app; auto].
  - intros x I. apply in_app_or in I. destruct I as [I|I]; [|apply Qlt_le_weak; auto].
    rewrite (B x); [apply Qle_refl|apply in_or_app; auto].
Qed.

(** ** Putting a token *)

Lemma add_token_spec p tok s s' : add_token p tok s = Some s' ->
  sl_ts s' = sl_ts s /\ sl_type s' = sl_type s /\ token_at p s' = Some tok
  /\ (forall q, q <> p -> token_at q s' = token_at q s).
Proof.
  unfold add_token. destruct (Nat.ltb _ _); [|discriminate]. intros H. injection H as <-. cbn.
  split; [reflexivity|]. split; [reflexivity|]. unfold token_at. cbn.
  assert (R : place_eqb p p = true) by (apply place_eqb_eq; reflexivity). rewrite R. split; [reflexivity|].
  intros q N. destruct (place_eqb q p) eqn:E; [apply place_eqb_eq in E; contradiction|].
  induction (sl_tokens s) as [|(r, t) l IH]; [reflexivity|]. cbn.
  destruct (place_eqb p r) eqn:E2; cbn.
  - apply place_eqb_eq in E2. subst r. rewrite E. exact IH.
  - destruct (place_eqb q r); [reflexivity|exact IH].
Qed.

Lemma change_at_spec f : forall i l l', change_at i f l = Some l' ->
  exists a s s' b, l = a ++ s :: b /\ l' = a ++ s' :: b /\ length a = i /\ f s = Some s'.
Proof.
  induction i as [|i IH]; intros [|s l] l' H; try discriminate; cbn in H.
  - destruct (f s) as [s'|] eqn:E; [|discriminate]. injection H as <-. exists [], s, s', l. auto.
  - destruct (change_at i f l) as [r|] eqn:E; [|discriminate]. injection H as <-.
    destruct (IH _ _ E) as (a & x & x' & b & -> & -> & L & F). exists (s :: a), x, x', b. cbn. rewrite L. auto.
Qed.

Lemma sorted_same_times a s s' b : sl_ts s' = sl_ts s -> StronglySorted tsle (a ++ s :: b) -> StronglySorted tsle (a ++ s' :: b).
Proof. intros E. rewrite !sorted_insert, E. auto. Qed.

Lemma put_sorted o fresh p tok l l' : StronglySorted tsle l -> put o fresh p tok l = Some l' ->
  (forall k s, o = Insert k -> sl_ts s = sl_ts fresh -> StronglySorted tsle (insert_at k s l)) ->
  StronglySorted tsle l'.
Proof.
  intros S H K. destruct o as [i|k]; cbn in H.
  - destruct (change_at_spec _ _ _ _ H) as (a & s & s' & b & -> & -> & _ & F).
    apply add_token_spec in F. destruct F as (T & _). eapply sorted_same_times; eassumption.
  - destruct (add_token p tok fresh) as [s|] eqn:E; [|discriminate]. injection H as <-.
    apply K; [reflexivity|]. apply add_token_spec in E. tauto.
Qed.

(** What one addition of a token does: one new line with this token only, or one
    existing line changed at one place. *)
Definition placed (ts : Q) (ty : slicetype) (p : place) (tok : str) (l l' : list slice) : Prop :=
  (exists a s b, l = a ++ b /\ l' = a ++ s :: b /\ (sl_ts s == ts)%Q /\ sl_type s = ty
     /\ token_at p s = Some tok /\ forall q, q <> p -> token_at q s = None)
  \/ (exists a s s' b, l = a ++ s :: b /\ l' = a ++ s' :: b /\ (sl_ts s == ts)%Q /\ (sl_ts s' == ts)%Q
     /\ sl_type s = ty /\ sl_type s' = ty
     /\ token_at p s' = Some tok /\ forall q, q <> p -> token_at q s' = token_at q s).

Lemma put_placed o ts ty n p tok l l' :
  put o (new_slice ts ty n) p tok l = Some l' ->
  (forall k, o = Insert k -> k <= length l) ->
  (forall k a s b, o = Reuse k -> l = a ++ s :: b -> length a = k -> (sl_ts s == ts)%Q /\ sl_type s = ty) ->
  placed ts ty p tok l l'.
Proof.
  intros H I R. destruct o as [k|k]; cbn in H.
  - right. destruct (change_at_spec _ _ _ _ H) as (a & s & s' & b & E & E' & L & F).
    destruct (R k a s b eq_refl E L) as (T & Y).
    apply add_token_spec in F. destruct F as (T' & Y' & P & O).
    exists a, s, s', b. rewrite T', Y'. auto 10.
  - left. destruct (add_token p tok (new_slice ts ty n)) as [s|] eqn:E; [|discriminate]. injection H as <-.
    destruct (insert_at_split k s l (I k eq_refl)) as (a & b & E1 & _ & E2).
    apply add_token_spec in E. destruct E as (T & Y & P & O). exists a, s, b.
    split; [exact E1|]. split; [exact E2|]. split; [rewrite T; reflexivity|]. split; [exact Y|].
    split; [exact P|]. intros q N. rewrite (O q N). reflexivity.
Qed.

Lemma past_end_false ts l : past_end ts l = false -> exists a s, l = a ++ [s] /\ (ts <= sl_ts s)%Q.
Proof.
  unfold past_end. intros H. destruct (rev l) as [|s r] eqn:E; [discriminate|]. qb.
  exists (rev r), s. split; [|exact H]. rewrite <- (rev_involutive l), E. reflexivity.
Qed.
Lemma past_end_true ts l : past_end ts l = true -> l = [] \/ exists a s, l = a ++ [s] /\ (sl_ts s < ts)%Q.
Proof.
  unfold past_end. intros H. destruct (rev l) as [|s r] eqn:E.
  - left. rewrite <- (rev_involutive l), E. reflexivity.
  - right. qb. exists (rev r), s. split; [|exact H]. rewrite <- (rev_involutive l), E. reflexivity.
Qed.
Lemma past_end_all ts l : StronglySorted tsle l -> past_end ts l = true -> forall x, In x l -> (sl_ts x < ts)%Q.
Proof.
  intros S H x I. destruct (past_end_true _ _ H) as [->|(a & s & -> & L)]; [destruct I|].
  apply in_app_or in I. destruct I as [I|[<-|[]]]; [|exact L].
  apply sorted_app in S. destruct S as (_ & _ & C). eapply Qle_lt_trans; [apply (C x s I); left; reflexivity|exact L].
Qed.

Lemma append_sorted l n : StronglySorted tsle l -> (forall x, In x l -> (sl_ts x <= sl_ts n)%Q) ->
  StronglySorted tsle (insert_at (length l) n l).
Proof.
  intros S F. rewrite <- (app_nil_r l) at 2. rewrite insert_at_app. apply sorted_insert.
  rewrite app_nil_r. split; [exact S|]. split; [exact F|]. intros ? [].
Qed.

(** ** Data tokens *)

Lemma later_reuse o k : later o = Some (Reuse k) -> exists j, k = S j /\ o = Some (Reuse j).
Proof. destruct o as [[j|j]|]; cbn; intros H; try discriminate. injection H as <-. eauto. Qed.
Lemma later_insert o k : later o = Some (Insert k) -> exists j, k = S j /\ o = Some (Insert j).
Proof. destruct o as [[j|j]|]; cbn; intros H; try discriminate. injection H as <-. eauto. Qed.
Lemma later_none o : later o = None -> o = None.
Proof. destruct o as [[j|j]|]; cbn; congruence. Qed.

(** Lines that a data token walks past. *)
Definition passes (ts : Q) (s : slice) : Prop :=
  (sl_type s = Notes -> (sl_ts s < ts)%Q) /\ (sl_type s = GraceNotes -> (sl_ts s <= ts)%Q).

Lemma data_scan_spec ts : forall l,
  match data_scan ts l with
  | Some (Reuse i) => exists a s b, l = a ++ s :: b /\ length a = i /\ sl_type s = Notes /\ (sl_ts s == ts)%Q
                      /\ Forall (passes ts) a
  | Some (Insert i) => exists a s b, l = a ++ s :: b /\ length a = i /\ is_data s = true /\ (ts < sl_ts s)%Q
                      /\ Forall (passes ts) a
  | None => Forall (passes ts) l
  end.
Proof.
  induction l as [|s l IH]; [constructor|]. cbn [data_scan].
  assert (Step : passes ts s -> match later (data_scan ts l) with
    | Some (Reuse i) => exists a x b, s :: l = a ++ x :: b /\ length a = i /\ sl_type x = Notes /\ (sl_ts x == ts)%Q
                        /\ Forall (passes ts) a
    | Some (Insert i) => exists a x b, s :: l = a ++ x :: b /\ length a = i /\ is_data x = true /\ (ts < sl_ts x)%Q
                        /\ Forall (passes ts) a
    | None => Forall (passes ts) (s :: l)
    end).
  { intros P. destruct (data_scan ts l) as [[i|i]|]; cbn [later].
    - destruct IH as (a & x & b & -> & L & R). exists (s :: a), x, b. cbn. rewrite L.
      destruct R as (R1 & R2 & R3). auto 10.
    - destruct IH as (a & x & b & -> & L & R). exists (s :: a), x, b. cbn. rewrite L.
      destruct R as (R1 & R2 & R3). auto 10.
    - constructor; assumption. }
  destruct (Qeq_bool ts (sl_ts s) && is_grace s) eqn:E1.
  - qb. apply Step. unfold is_grace in H0. apply slicetype_eqb_eq in H0. split; [congruence|].
    intros _. rewrite H. apply Qle_refl.
  - destruct (is_data s) eqn:D; cbn [negb].
    + destruct (Qeq_bool (sl_ts s) ts) eqn:E2.
      * qb. exists [], s, l. split; [reflexivity|]. split; [reflexivity|]. split; [|split; [exact E2|constructor]].
        apply andb_false_iff in E1. destruct E1 as [E1|E1].
        -- exfalso. qb. apply E1. symmetry. exact E2.
        -- unfold is_data in D. unfold is_grace in E1. destruct (sl_type s); try discriminate; reflexivity.
      * destruct (qlt ts (sl_ts s)) eqn:E3.
        -- qb. exists [], s, l. auto 10.
        -- qb. apply Step. split; intros _; [apply q_lt_of_le_ne; assumption|exact E3].
    + apply Step. unfold is_data in D. split; intros T; rewrite T in D; discriminate.
Qed.

Lemma data_spot_placed ts n p tok l l' : addDataToken ts n p tok l = Some l' -> placed ts Notes p tok l l'.
Proof.
  unfold addDataToken, data_spot. intros H. pose proof (data_scan_spec ts l) as D.
  apply (put_placed _ _ _ _ _ _ _ _ H).
  - intros k. destruct (past_end ts l); [intros E; injection E as <-; lia|].
    destruct (data_scan ts l) as [[i|i]|]; cbn; intros E; try discriminate; injection E as <-; [|lia].
    destruct D as (a & s & b & -> & L & _). rewrite app_length. lia.
  - intros k a s b. destruct (past_end ts l); [discriminate|].
    destruct (data_scan ts l) as [[i|i]|]; cbn; intros E; try discriminate; injection E as <-.
    destruct D as (a' & s' & b' & E & L & T & Q & _). intros E' L'.
    assert (X : nth_error l i = Some s) by (rewrite E', <- L', nth_error_app2, Nat.sub_diag by lia; reflexivity).
    assert (X' : nth_error l i = Some s') by (rewrite E, <- L, nth_error_app2, Nat.sub_diag by lia; reflexivity).
    rewrite X in X'. injection X' as <-. auto.
Qed.

(** When a data token is welcome: there is a line of notes at its time, or the
    first line later than it is a line of notes or grace notes. *)
Definition data_fits (ts : Q) (l : list slice) : Prop :=
  (exists s, In s l /\ sl_type s = Notes /\ (sl_ts s == ts)%Q)
  \/ (forall a s b, l = a ++ s :: b -> (ts < sl_ts s)%Q -> (forall x, In x a -> (sl_ts x <= ts)%Q) ->
        sl_type s = Notes \/ sl_type s = GraceNotes).

Lemma is_data_iff s : is_data s = true <-> sl_type s = Notes \/ sl_type s = GraceNotes.
Proof. unfold is_data. destruct (sl_type s); split; intuition congruence. Qed.

Lemma list_split_eq {A} (a1 a2 : list A) x1 x2 b1 b2 : a1 ++ x1 :: b1 = a2 ++ x2 :: b2 ->
  a1 = a2 /\ x1 = x2 /\ b1 = b2 \/ In x1 a2 \/ In x2 a1.
Proof.
  revert a2. induction a1 as [|y a1 IH]; intros [|z a2] E; cbn in E.
  - injection E as -> ->. auto.
  - injection E as -> E. right. left. left. reflexivity.
  - injection E as -> E. right. right. left. reflexivity.
  - injection E as -> E. destruct (IH _ E) as [(-> & -> & ->)|[I|I]]; [auto|right; left; right; exact I|right; right; right; exact I].
Qed.

Lemma first_later_exists ts (l : list slice) : (forall x, In x l -> (sl_ts x <= ts)%Q) \/
  exists a s b, l = a ++ s :: b /\ (ts < sl_ts s)%Q /\ forall x, In x a -> (sl_ts x <= ts)%Q.
Proof.
  induction l as [|y l IH]; [left; intros ? []|].
  destruct (Qlt_le_dec ts (sl_ts y)) as [L|L].
  - right. exists [], y, l. split; [reflexivity|]. split; [exact L|]. intros ? [].
  - destruct IH as [F|(a & s & b & -> & G & F)].
    + left. intros x [<-|I]; auto.
    + right. exists (y :: a), s, b. split; [reflexivity|]. split; [exact G|]. intros x [<-|I]; auto.
Qed.

Lemma insert_nth_new k (s : slice) l : k <= length l -> nth_error (insert_at k s l) k = Some s.
Proof.
  intros H. destruct (insert_at_split k s l H) as (a & b & _ & L & ->).
  rewrite <- L, nth_error_app2, Nat.sub_diag by lia. reflexivity.
Qed.

Theorem data_order ts n p tok l l' : in_time_order l -> addDataToken ts n p tok l = Some l' ->
  (in_time_order l' <-> data_fits ts l).
Proof.
  rewrite !in_time_order_sorted. intros S H. unfold addDataToken in H. unfold data_spot in H.
  pose proof (data_scan_spec ts l) as D.
  destruct (past_end ts l) eqn:PE.
  { pose proof (past_end_all _ _ S PE) as F. split; intros _.
    - right. intros a s b -> L _. exfalso. apply (Qlt_irrefl ts). eapply Qlt_trans; [exact L|].
      apply F. apply in_or_app. right. left. reflexivity.
    - eapply put_sorted; [exact S|exact H|]. intros k s E T. injection E as <-.
      apply append_sorted; [exact S|]. intros x I. rewrite T. apply Qlt_le_weak. apply F. exact I. }
  destruct (data_scan ts l) as [[i|i]|]; cbn [or_end] in H.
  - destruct D as (a & s & b & E & L & T & Q & _). split; intros _.
    + left. exists s. split; [rewrite E; apply in_or_app; right; left; reflexivity|auto].
    + eapply put_sorted; [exact S|exact H|]. intros; discriminate.
  - destruct D as (a & s & b & E & L & T & Q & P). rewrite Forall_forall in P.
    cbn [put] in H. destruct (add_token p tok _) as [s0|] eqn:A; [|discriminate]. injection H as <-.
    apply add_token_spec in A. destruct A as (AT & _). cbn in AT.
    rewrite E in *. rewrite <- L, insert_at_app. rewrite sorted_insert, AT.
    assert (NoNotes : ~ exists x, In x (a ++ s :: b) /\ sl_type x = Notes /\ (sl_ts x == ts)%Q).
    { intros (x & I & TX & QX). apply in_app_or in I. destruct I as [I|I].
      - destruct (P x I) as (PN & _). specialize (PN TX). rewrite QX in PN. exact (Qlt_irrefl _ PN).
      - apply sorted_app in S. destruct S as (_ & S2 & _). inversion S2 as [|? ? _ F]; subst.
        rewrite Forall_forall in F. destruct I as [<-|I].
        + rewrite QX in Q. exact (Qlt_irrefl _ Q).
        + specialize (F x I). unfold tsle in F. rewrite QX in F. exact (Qle_not_lt _ _ F Q). }
    split.
    + intros (_ & F & _). right. intros a2 s2 b2 E2 L2 F2.
      apply list_split_eq in E2. destruct E2 as [(_ & -> & _)|[I|I]].
      * apply is_data_iff. exact T.
      * exfalso. exact (Qle_not_lt _ _ (F2 _ I) Q).
      * exfalso. exact (Qle_not_lt _ _ (F _ I) L2).
    + intros [X|X]; [contradiction|].
      destruct (first_later_exists ts (a ++ s :: b)) as [F|(a2 & s2 & b2 & E2 & L2 & F2)].
      { exfalso. apply (Qle_not_lt _ _ (F s ltac:(apply in_or_app; right; left; reflexivity)) Q). }
      pose proof (X _ _ _ E2 L2 F2) as D2.
      apply list_split_eq in E2. destruct E2 as [(-> & _ & _)|[I|I]].
      * split; [exact S|]. split; [exact F2|]. intros x I. apply sorted_app in S. destruct S as (_ & S2 & _).
        inversion S2 as [|? ? _ F]; subst. rewrite Forall_forall in F. destruct I as [<-|I]; [apply Qlt_le_weak; exact Q|].
        apply Qlt_le_weak. eapply Qlt_le_trans; [exact Q|]. apply F. exact I.
      * exfalso. exact (Qle_not_lt _ _ (F2 _ I) Q).
      * exfalso. destruct (P _ I) as (P1 & P2). destruct D2 as [D2|D2].
        -- apply (Qlt_irrefl ts). eapply Qlt_trans; [exact L2|]. apply P1; exact D2.
        -- exact (Qle_not_lt _ _ (P2 D2) L2).
  - rewrite Forall_forall in D.
    cbn [put] in H. destruct (add_token p tok _) as [s0|] eqn:A; [|discriminate]. injection H as <-.
    apply add_token_spec in A. destruct A as (AT & _). cbn in AT.
    rewrite <- (app_nil_r l) at 2. rewrite insert_at_app, sorted_insert, app_nil_r, AT. split.
    + intros (_ & F & _). right. intros a s b E L _. exfalso. apply (Qle_not_lt (sl_ts s) ts); [|exact L].
      apply F. rewrite E. apply in_or_app. right. left. reflexivity.
    + intros X. split; [exact S|]. split; [|intros ? []].
      destruct (first_later_exists ts l) as [F|(a & s & b & E & L & F)]; [exact F|]. exfalso.
      assert (I : In s l) by (rewrite E; apply in_or_app; right; left; reflexivity).
      destruct X as [(x & IX & TX & QX)|X].
      * destruct (D x IX) as (P1 & _). specialize (P1 TX). rewrite QX in P1. exact (Qlt_irrefl _ P1).
      * destruct (D s I) as (P1 & P2). destruct (X _ _ _ E L F) as [T|T].
        -- apply (Qlt_irrefl ts). eapply Qlt_trans; [exact L|auto].
        -- exact (Qle_not_lt _ _ (P2 T) L).
Qed.

(** No two lines of notes at one time. *)
Definition one_line_per_time (l : list slice) : Prop :=
  forall a x b y c, l = a ++ x :: b ++ y :: c -> sl_type x = Notes -> sl_type y = Notes -> ~ (sl_ts x == sl_ts y)%Q.

Lemma pair_insert (a b : list slice) s : forall a1 x b1 y c1, a ++ s :: b = a1 ++ x :: b1 ++ y :: c1 ->
  (exists a2 b2 c2, a ++ b = a2 ++ x :: b2 ++ y :: c2) \/ (x = s /\ In y b) \/ (y = s /\ In x a).
Proof.
  induction a as [|z a IH]; intros a1 x b1 y c1 E; cbn [app] in *.
  - destruct a1 as [|w a1]; cbn [app] in E; injection E as -> E.
    + right. left. split; [reflexivity|]. rewrite E. apply in_or_app. right. left. reflexivity.
    + left. exists a1, b1, c1. exact E.
  - destruct a1 as [|w a1]; cbn [app] in E; injection E as -> E.
    + assert (I : In y (a ++ s :: b)) by (rewrite E; apply in_or_app; right; left; reflexivity).
      assert (J : y = s \/ In y (a ++ b)).
      { apply in_app_or in I. destruct I as [I|[I|I]]; [right; apply in_or_app; auto|auto|right; apply in_or_app; auto]. }
      destruct J as [->|J]; [right; right; split; [reflexivity|left; reflexivity]|].
      left. apply in_split in J. destruct J as (b2 & c2 & J). exists [], b2, c2. rewrite J. reflexivity.
    + destruct (IH _ _ _ _ _ E) as [(a2 & b2 & c2 & X)|[X|(X & Y)]].
      * left. exists (w :: a2), b2, c2. rewrite X. reflexivity.
      * auto.
      * right. right. split; [exact X|right; exact Y].
Qed.

Lemma pair_in_right (a b : list slice) x y : In x a -> In y b -> exists a2 b2 c2, a ++ b = a2 ++ x :: b2 ++ y :: c2.
Proof.
  intros I J. apply in_split in I. destruct I as (a1 & a2 & ->). apply in_split in J. destruct J as (b1 & b2 & ->).
  exists a1, (a2 ++ b1), b2. rewrite <- !app_assoc. reflexivity.
Qed.

Lemma same_line_times a s s' b : sl_ts s' = sl_ts s -> sl_type s' = sl_type s ->
  one_line_per_time (a ++ s :: b) -> one_line_per_time (a ++ s' :: b).
Proof.
  intros T Y H a1 x b1 y c1 E TX TY Q. apply pair_insert in E.
  destruct E as [(a2 & b2 & c2 & E)|[(-> & I)|(-> & I)]].
  - assert (X : exists a3 b3 c3, a ++ s :: b = a3 ++ x :: b3 ++ y :: c3).
    { assert (P : forall (u v : list slice) a2 b2 c2, u ++ v = a2 ++ x :: b2 ++ y :: c2 ->
                 exists a3 b3 c3, u ++ s :: v = a3 ++ x :: b3 ++ y :: c3).
      { induction u as [|z u IH]; intros v a4 b4 c4 E4; cbn [app] in *.
        - exists (s :: a4), b4, c4. rewrite E4. reflexivity.
        - destruct a4 as [|w a4]; cbn [app] in E4; injection E4 as -> E4.
          + assert (I : In y (u ++ s :: v)).
            { assert (I : In y (u ++ v)) by (rewrite E4; apply in_or_app; right; left; reflexivity).
              apply in_or_app. apply in_app_or in I. destruct I; [left|right; right]; assumption. }
            apply in_split in I. destruct I as (b3 & c3 & I). exists [], b3, c3. rewrite I. reflexivity.
          + destruct (IH _ _ _ _ E4) as (a3 & b3 & c3 & X). exists (w :: a3), b3, c3. rewrite X. reflexivity. }
      exact (P _ _ _ _ _ E). }
    destruct X as (a3 & b3 & c3 & X). exact (H _ _ _ _ _ X TX TY Q).
  - apply in_split in I. destruct I as (b3 & c3 & ->). rewrite T in Q. rewrite Y in TX.
    exact (H a s b3 y c3 eq_refl TX TY Q).
  - apply in_split in I. destruct I as (a3 & b3 & ->). rewrite T in Q. rewrite Y in TY.
    apply (H a3 x b3 s b); [rewrite <- app_assoc; reflexivity|exact TX|exact TY|exact Q].
Qed.

Theorem data_one_line ts n p tok l l' : in_time_order l -> one_line_per_time l -> addDataToken ts n p tok l = Some l' ->
  one_line_per_time l'.
Proof.
  rewrite in_time_order_sorted. intros S U H. unfold addDataToken in H. unfold data_spot in H.
  pose proof (data_scan_spec ts l) as D.
  assert (Ins : forall a b s, l = a ++ b -> sl_ts s = ts -> (forall x, In x l -> sl_type x = Notes -> ~ (sl_ts x == ts)%Q) ->
    one_line_per_time (a ++ s :: b)).
  { intros a b s E T N a1 x b1 y c1 E1 TX TY Q. apply pair_insert in E1.
    destruct E1 as [(a2 & b2 & c2 & E1)|[(-> & I)|(-> & I)]].
    - rewrite <- E in E1. exact (U _ _ _ _ _ E1 TX TY Q).
    - rewrite T in Q. apply (N y); [rewrite E; apply in_or_app; auto|exact TY|symmetry; exact Q].
    - rewrite T in Q. apply (N x); [rewrite E; apply in_or_app; auto|exact TX|exact Q]. }
  destruct (past_end ts l) eqn:PE.
  { pose proof (past_end_all _ _ S PE) as F. cbn in H. destruct (add_token p tok _) as [s|] eqn:A; [|discriminate].
    injection H as <-. apply add_token_spec in A. destruct A as (AT & _).
    rewrite <- (app_nil_r l) at 2. rewrite insert_at_app. apply Ins; [rewrite app_nil_r; reflexivity|exact AT|].
    intros x I _ Q. specialize (F x I). rewrite Q in F. exact (Qlt_irrefl _ F). }
  destruct (data_scan ts l) as [[i|i]|]; cbn [or_end put] in H.
  - destruct (change_at_spec _ _ _ _ H) as (a & s & s' & b & -> & -> & _ & F).
    apply add_token_spec in F. destruct F as (T & Y & _). eapply same_line_times; eassumption.
  - destruct D as (a & s & b & E & L & T & Q & P). rewrite Forall_forall in P.
    destruct (add_token p tok _) as [s0|] eqn:A; [|discriminate]. injection H as <-.
    apply add_token_spec in A. destruct A as (AT & _). cbn in AT.
    rewrite E at 1. rewrite <- L, insert_at_app. apply Ins; [exact E|exact AT|].
    intros x I TX QX. rewrite E in I. apply in_app_or in I. destruct I as [I|I].
    + destruct (P x I) as (PN & _). specialize (PN TX). rewrite QX in PN. exact (Qlt_irrefl _ PN).
    + rewrite E in S. apply sorted_app in S. destruct S as (_ & S2 & _). inversion S2 as [|? ? _ F]; subst.
      rewrite Forall_forall in F. destruct I as [<-|I].
      * rewrite QX in Q. exact (Qlt_irrefl _ Q).
      * specialize (F x I). unfold tsle in F. rewrite QX in F. exact (Qle_not_lt _ _ F Q).
  - rewrite Forall_forall in D. destruct (add_token p tok _) as [s0|] eqn:A; [|discriminate]. injection H as <-.
    apply add_token_spec in A. destruct A as (AT & _). cbn in AT.
    rewrite <- (app_nil_r l) at 2. rewrite insert_at_app. apply Ins; [rewrite app_nil_r; reflexivity|exact AT|].
    intros x I TX QX. destruct (D x I) as (PN & _). specialize (PN TX). rewrite QX in PN. exact (Qlt_irrefl _ PN).
Qed.

(** ** Tokens of other kinds *)

Lemma layout_run_le : forall r, layout_run r <= length r.
Proof. induction r as [|s r IH]; cbn; [lia|]. destruct (is_type Layouts s); lia. Qed.

(** The last line earlier than a time, if there is one. *)
Definition last_earlier (ts : Q) (l : list slice) (P : slice -> Prop) : Prop :=
  forall a s b, l = a ++ s :: b -> (sl_ts s < ts)%Q -> (forall x, In x b -> (ts <= sl_ts x)%Q) -> P s.

Lemma layout_run_app u v : (match v with s :: _ => is_type Layouts s = false | [] => True end) ->
  layout_run (u ++ v) <= length u.
Proof.
  intros H. induction u as [|s u IH]; cbn.
  - destruct v as [|s v]; cbn; [lia|]. rewrite H. lia.
  - destruct (is_type Layouts s); lia.
Qed.

Lemma type_scan_spec before ty ts : forall todo done,
  (forall x, In x done -> (sl_ts x <= ts)%Q) ->
  match type_scan before ty ts done todo with
  | Some (Reuse i) => exists a s b, todo = a ++ s :: b /\ i = length done + length a
                      /\ sl_type s = ty /\ (sl_ts s == ts)%Q
  | Some (Insert i) => exists a s b, todo = a ++ s :: b
                      /\ (forall x, In x a -> (sl_ts x <= ts)%Q) /\
                      ((sl_ts s == ts)%Q /\ i = (if before then startIdxOfLayoutGroupBefore (length done + length a) (done ++ todo) else length done + length a)
                       \/ (ts < sl_ts s)%Q /\ i = length done + length a)
  | None => forall x, In x todo -> (sl_ts x <= ts)%Q
  end.
Proof.
  induction todo as [|s todo IH]; intros done D; [intros ? []|]. cbn [type_scan].
  destruct (Qeq_bool (sl_ts s) ts && is_type ty s) eqn:E1.
  { qb. apply is_type_eq in H0. exists [], s, todo. cbn. auto 10. }
  destruct (Qeq_bool (sl_ts s) ts && is_data s) eqn:E2.
  { qb. exists [], s, todo. cbn. rewrite Nat.add_0_r. split; [reflexivity|]. split; [intros ? []|]. left. auto. }
  destruct (qlt ts (sl_ts s)) eqn:E3.
  { qb. exists [], s, todo. cbn. rewrite Nat.add_0_r. split; [reflexivity|]. split; [intros ? []|]. right. auto. }
  qb. assert (D' : forall x, In x (done ++ [s]) -> (sl_ts x <= ts)%Q).
  { intros x I. apply in_app_or in I. destruct I as [I|[<-|[]]]; auto. }
  specialize (IH (done ++ [s]) D').
  assert (LL : length (done ++ [s]) = S (length done)) by (rewrite app_length; cbn; lia).
  destruct (type_scan before ty ts (done ++ [s]) todo) as [[i|i]|].
  - destruct IH as (a & x & b & -> & -> & R). exists (s :: a), x, b. split; [reflexivity|]. split; [cbn; lia|exact R].
  - destruct IH as (a & x & b & -> & F & R). exists (s :: a), x, b. split; [reflexivity|]. split.
    { intros y [<-|I]; auto. }
    rewrite LL in R. cbn [length]. rewrite <- plus_n_Sm. cbn in R. rewrite <- app_assoc in R. exact R.
  - intros x [<-|I]; auto.
Qed.

Lemma type_spot_placed before ty ts n p tok l l' : addTokenOfSliceType before ty ts n p tok l = Some l' -> placed ts ty p tok l l'.
Proof.
  unfold addTokenOfSliceType, type_spot. intros H. pose proof (type_scan_spec before ty ts l [] ltac:(intros ? [])) as D.
  apply (put_placed _ _ _ _ _ _ _ _ H).
  - intros k. destruct (past_end ts l); [intros E; injection E as <-; lia|].
    destruct (type_scan before ty ts [] l) as [[i|i]|]; cbn; intros E; try discriminate; injection E as <-; [|lia].
    destruct D as (a & s & b & -> & _ & [(_ & ->)|(_ & ->)]); rewrite app_length; cbn; [|lia].
    destruct before; cbn; [unfold startIdxOfLayoutGroupBefore|]; lia.
  - intros k a s b. destruct (past_end ts l); [discriminate|].
    destruct (type_scan before ty ts [] l) as [[i|i]|]; cbn; intros E; try discriminate; injection E as <-.
    destruct D as (a' & s' & b' & E & L & T & Q). intros E' L'. cbn in L.
    assert (X : nth_error l i = Some s) by (rewrite E', <- L', nth_error_app2, Nat.sub_diag by lia; reflexivity).
    assert (X' : nth_error l i = Some s') by (rewrite E, L, nth_error_app2, Nat.sub_diag by lia; reflexivity).
    rewrite X in X'. injection X' as <-. auto.
Qed.

(** The lines of a sorted list before one that is not earlier than [ts]. *)
Lemma split_point ts lo eq hi a s b : lo ++ eq ++ hi = a ++ s :: b ->
  (forall x, In x lo -> (sl_ts x < ts)%Q) -> (ts <= sl_ts s)%Q -> exists e, a = lo ++ e /\ eq ++ hi = e ++ s :: b.
Proof.
  intros E A L. revert a E. induction lo as [|x lo IH]; intros a E.
  - exists a. auto.
  - destruct a as [|y a]; cbn [app] in E; injection E as -> E.
    + exfalso. exact (Qle_not_lt _ _ L (A _ (or_introl eq_refl))).
    + destruct (IH (fun x I => A x (or_intror I)) a E) as (e & -> & X). exists e. auto.
Qed.

Theorem type_order before ty ts n p tok l l' : in_time_order l ->
  (before = true -> last_earlier ts l (fun s => sl_type s <> Layouts)) ->
  addTokenOfSliceType before ty ts n p tok l = Some l' -> in_time_order l'.
Proof.
  rewrite !in_time_order_sorted. intros S B H. unfold addTokenOfSliceType, type_spot in H.
  pose proof (type_scan_spec before ty ts l [] ltac:(intros ? [])) as D.
  eapply put_sorted; [exact S|exact H|]. intros k s0 K T. cbn in T.
  destruct (past_end ts l) eqn:PE.
  { injection K as <-. apply append_sorted; [exact S|]. intros x I. rewrite T. apply Qlt_le_weak. eapply past_end_all; eassumption. }
  destruct (type_scan before ty ts [] l) as [[i|i]|]; cbn [or_end] in K; [discriminate| |].
  - injection K as <-. destruct D as (a & s & b & E & F & R). cbn in R.
    destruct (time_split ts l S) as (lo & eq & hi & EL & A & Beq & C).
    assert (LS : (ts <= sl_ts s)%Q) by (destruct R as [(R & _)|(R & _)]; [rewrite R; apply Qle_refl|apply Qlt_le_weak; exact R]).
    rewrite EL in E. destruct (split_point ts lo eq hi a s b E A LS) as (e & -> & X).
    assert (Le : length e <= length eq).
    { destruct (Nat.le_gt_cases (length e) (length eq)) as [G|G]; [exact G|]. exfalso.
      assert (Y : exists y, In y e /\ In y hi).
      { assert (Z : e = eq ++ firstn (length e - length eq) hi).
        { assert (W : firstn (length e) (eq ++ hi) = e) by (rewrite X, firstn_app, Nat.sub_diag, firstn_all; cbn; apply app_nil_r).
          rewrite firstn_app, firstn_all2 in W by lia. symmetry. exact W. }
        destruct (firstn (length e - length eq) hi) as [|y r] eqn:FR.
        - rewrite app_nil_r in Z. subst e. lia.
        - exists y. split; [rewrite Z; apply in_or_app; right; left; reflexivity|].
          rewrite <- (firstn_skipn (length e - length eq) hi), FR. left. reflexivity. }
      destruct Y as (y & I & J). apply (Qle_not_lt (sl_ts y) ts); [apply F; apply in_or_app; auto|auto]. }
    rewrite EL in *. rewrite <- T in *.
    apply insert_between; try assumption.
    rewrite app_length in R. destruct R as [(_ & ->)|(_ & ->)]; [|lia].
    destruct before; [|lia]. unfold startIdxOfLayoutGroupBefore.
    assert (FN : firstn (length lo + length e) (lo ++ eq ++ hi) = lo ++ e).
    { rewrite E. replace (length lo + length e) with (length (lo ++ e)) by apply app_length.
      rewrite firstn_app, Nat.sub_diag, firstn_all. cbn. apply app_nil_r. }
    rewrite FN, rev_app_distr.
    assert (RU : layout_run (rev e ++ rev lo) <= length (rev e)).
    { apply layout_run_app. destruct (rev lo) as [|z r] eqn:RL; [exact I|].
      assert (lo = rev r ++ [z]) as -> by (rewrite <- (rev_involutive lo), RL; reflexivity).
      destruct (is_type Layouts z) eqn:TZ; [|reflexivity]. exfalso. apply is_type_eq in TZ.
      refine (B eq_refl (rev r) z (eq ++ hi) _ _ _ TZ).
      - rewrite <- app_assoc. reflexivity.
      - apply A. apply in_or_app. right. left. reflexivity.
      - intros x I. apply in_app_or in I. destruct I as [I|I]; [rewrite (Beq x I); apply Qle_refl|apply Qlt_le_weak; auto]. }
    rewrite rev_length in RU. lia.
  - injection K as <-. apply append_sorted; [exact S|]. intros x I. rewrite T. apply D. exact I.
Qed.

(** ** Grace notes *)

Lemma grace_back_low number : forall u v c k, (match v with s :: _ => is_data s = true | [] => True end) ->
  match grace_back number c (length u + length v + k) (u ++ v) with
  | Some (Insert i) => length v + k <= i <= length u + length v + k
  | Some (Reuse _) => True
  | None => v = []
  end.
Proof.
  induction u as [|s u IH]; intros v c k V.
  - cbn [app length]. destruct v as [|s v]; cbn [grace_back]; [reflexivity|].
    destruct (is_grace s) eqn:G; [destruct (Nat.eqb (S c) number); [exact I|cbn [length]; lia]|].
    destruct (is_type Layouts s) eqn:L.
    { exfalso. unfold is_data in V. apply is_type_eq in L. rewrite L in V. discriminate. }
    rewrite V. lia.
  - cbn [app grace_back]. destruct (is_grace s) eqn:G; [destruct (Nat.eqb (S c) number); [exact I|cbn [length]; lia]|].
    specialize (IH v c k V). replace (length (s :: u) + length v + k - 1) with (length u + length v + k) by (cbn; lia).
    assert (W : match grace_back number c (length u + length v + k) (u ++ v) with
                | Some (Insert i) => length v + k <= i <= length (s :: u) + length v + k
                | Some (Reuse _) => True
                | None => v = []
                end).
    { destruct (grace_back number c (length u + length v + k) (u ++ v)) as [[i|i]|]; try exact IH. cbn. lia. }
    destruct (is_type Layouts s); [exact W|]. destruct (is_data s); [cbn [length]; lia|exact W].
Qed.

Lemma grace_find_spec ts : forall l i,
  match grace_find ts i l with
  | At j => exists a s b, l = a ++ s :: b /\ j = i + length a /\ (sl_ts s == ts)%Q
  | Missing => forall x, In x l -> is_data x = true -> ~ (sl_ts x == ts)%Q
  | Raise => True
  end.
Proof.
  induction l as [|s l IH]; intros i; cbn; [intros ? []|].
  destruct (qlt ts (sl_ts s)); [exact I|].
  destruct (is_data s && Qeq_bool (sl_ts s) ts) eqn:E.
  - qb. exists [], s, l. cbn. rewrite Nat.add_0_r. auto.
  - specialize (IH (S i)). destruct (grace_find ts (S i) l) as [| |j].
    + exact I.
    + intros x [<-|J]; [|auto]. intros D Q. rewrite D in E. apply qeq_iff in Q. rewrite Q in E. discriminate.
    + destruct IH as (a & x & b & -> & -> & Q). exists (s :: a), x, b. cbn. split; [reflexivity|]. split; [lia|exact Q].
Qed.

(** When a grace note is welcome: the last earlier line is a line of notes or grace
    notes; and there is such a line at its own time, or all lines are earlier, or
    none is. *)
Definition grace_fits (ts : Q) (l : list slice) : Prop :=
  last_earlier ts l (fun s => sl_type s = Notes \/ sl_type s = GraceNotes)
  /\ ((exists s, In s l /\ (sl_type s = Notes \/ sl_type s = GraceNotes) /\ (sl_ts s == ts)%Q)
      \/ (forall s, In s l -> (sl_ts s < ts)%Q) \/ (forall s, In s l -> (ts <= sl_ts s)%Q)).

Lemma last_lo ts lo eq hi (P : slice -> Prop) :
  (forall x, In x lo -> (sl_ts x < ts)%Q) -> (forall x, In x eq -> (sl_ts x == ts)%Q) ->
  (forall x, In x hi -> (ts < sl_ts x)%Q) -> last_earlier ts (lo ++ eq ++ hi) P ->
  match rev lo with s :: _ => P s | [] => True end.
Proof.
  intros A B C H. destruct (rev lo) as [|z r] eqn:RL; [exact I|].
  assert (lo = rev r ++ [z]) as -> by (rewrite <- (rev_involutive lo), RL; reflexivity).
  apply (H (rev r) z (eq ++ hi)).
  - rewrite <- app_assoc. reflexivity.
  - apply A. apply in_or_app. right. left. reflexivity.
  - intros x I. apply in_app_or in I. destruct I as [I|I]; [rewrite (B x I); apply Qle_refl|apply Qlt_le_weak; auto].
Qed.

Theorem grace_order ts n number p tok l l' : in_time_order l -> grace_fits ts l ->
  addGraceToken ts n number p tok l = Some l' -> in_time_order l'.
Proof.
  rewrite !in_time_order_sorted. intros S (LE & EX) H. unfold addGraceToken, grace_spot in H.
  destruct (Nat.eqb number 0); [discriminate|].
  assert (Start : (forall s, In s l -> (ts <= sl_ts s)%Q) -> forall s0, sl_ts s0 = ts -> StronglySorted tsle (insert_at 0 s0 l)).
  { intros F s0 T. unfold insert_at. cbn. constructor; [exact S|]. apply Forall_forall. intros x I.
    unfold tsle. rewrite T. auto. }
  destruct (rev l) as [|last r] eqn:RL.
  { assert (l = []) as -> by (rewrite <- (rev_involutive l), RL; reflexivity).
    eapply put_sorted; [exact S|exact H|]. intros k s E T. injection E as <-. apply Start; [intros ? []|exact T]. }
  assert (EL : l = rev r ++ [last]) by (rewrite <- (rev_involutive l), RL; reflexivity).
  destruct (qlt (sl_ts last) ts) eqn:Q.
  - qb. assert (DL : is_data last = true).
    { apply is_data_iff. apply (LE (rev r) last []); [exact EL|exact Q|intros ? []]. }
    assert (F : forall x, In x l -> (sl_ts x <= ts)%Q).
    { rewrite EL. intros x I. apply in_app_or in I. destruct I as [I|[<-|[]]]; [|apply Qlt_le_weak; exact Q].
      rewrite EL in S. apply sorted_app in S. destruct S as (_ & _ & C). eapply Qle_trans; [apply (C x last I); left; reflexivity|].
      apply Qlt_le_weak. exact Q. }
    pose proof (grace_back_low number [] (last :: r) 0 0 DL) as G.
    cbn [length app] in G. replace (0 + Datatypes.S (length r) + 0) with (length l) in G.
    2: { rewrite EL, app_length, rev_length. cbn. lia. }
    destruct (grace_back number 0 (length l) (last :: r)) as [o|]; [|injection H as <-; exact S].
    eapply put_sorted; [exact S|exact H|]. intros k s E T. subst o.
    replace k with (length l); [apply append_sorted; [exact S|intros x I; rewrite T; auto]|].
    rewrite EL, app_length, rev_length in *. cbn in *. lia.
  - qb. pose proof (grace_find_spec ts l 0) as GF.
    destruct (grace_find ts 0 l) as [| |i]; [discriminate| |].
    + eapply put_sorted; [exact S|exact H|]. intros k s E T. injection E as <-. apply Start; [|exact T].
      destruct EX as [(x & I & D & X)|[X|X]]; [exfalso; apply (GF x I); [apply is_data_iff; exact D|exact X]| |exact X].
      exfalso. apply (Qle_not_lt _ _ Q). apply X. rewrite EL. apply in_or_app. right. left. reflexivity.
    + destruct GF as (a & s & b & E & -> & QS). cbn [plus] in H.
      destruct (time_split ts l S) as (lo & eq & hi & E2 & A & B & C).
      rewrite E in E2. symmetry in E2.
      assert (LS : (ts <= sl_ts s)%Q) by (rewrite QS; apply Qle_refl).
      destruct (split_point ts lo eq hi a s b E2 A LS) as (e & EA & X).
      assert (Le : length e <= length eq).
      { destruct (Nat.le_gt_cases (length e) (length eq)) as [G|G]; [exact G|]. exfalso.
        assert (Y : In s hi).
        { assert (N : nth_error (eq ++ hi) (length e) = Some s) by (rewrite X, nth_error_app2, Nat.sub_diag by lia; reflexivity).
          rewrite nth_error_app2 in N by lia. eapply nth_error_In. exact N. }
        specialize (C s Y). rewrite QS in C. exact (Qlt_irrefl _ C). }
      assert (FN : firstn (length a) l = a) by (rewrite E, firstn_app, Nat.sub_diag, firstn_all; cbn; apply app_nil_r).
      rewrite FN in H.
      assert (V : match rev lo with z :: _ => is_data z = true | [] => True end).
      { pose proof (last_lo ts lo eq hi (fun z => sl_type z = Notes \/ sl_type z = GraceNotes) A B C) as LL.
        rewrite E2, <- E in LL. specialize (LL LE). destruct (rev lo); [exact I|]. apply is_data_iff. exact LL. }
      pose proof (grace_back_low number (rev e) (rev lo) 0 0 V) as G.
      assert (LA : length (rev e) + length (rev lo) + 0 = length a) by (rewrite EA, app_length, !rev_length; lia).
      rewrite LA, <- rev_app_distr, <- EA in G. rewrite !rev_length in G.
      assert (Ins : forall k s0, length lo <= k <= length a -> sl_ts s0 = ts -> StronglySorted tsle (insert_at k s0 l)).
      { intros k s0 K T. rewrite E, <- E2. rewrite E, <- E2 in S. apply insert_between; rewrite ?T; try assumption.
        rewrite EA, app_length in K. lia. }
      destruct (grace_back number 0 (length a) (rev a)) as [o|] eqn:GB.
      * eapply put_sorted; [exact S|exact H|]. intros k s0 K T. subst o. apply Ins; [lia|exact T].
      * eapply put_sorted; [exact S|exact H|]. intros k s0 K T. injection K as <-. apply Ins; [|exact T].
        apply (f_equal (@length _)) in G. rewrite rev_length in G. cbn in G. lia.
Qed.
