(** Lemmas about the events of a measure: sorting, hidden rests, and the walk
    through the events of all staves. *)
From Verif Require Import MeasureModel PyStrProofs MeasureProofs DurationModel DurationProofs.
From Coq Require Import QArith Sorting.Sorted Permutation Lia.
Local Close Scope Q_scope.

(** ** Sorting *)

Definition evle (x y : event) : Prop := (ev_start x <= ev_start y)%Q.

Lemma insert_event_in e l x : In x (insert_event e l) <-> x = e \/ In x l.
Proof.
  induction l as [|y l IH]; cbn; [intuition congruence|].
  destruct (Qle_bool (ev_start e) (ev_start y)); cbn; [intuition congruence|]. rewrite IH. intuition congruence.
Qed.

Lemma insert_event_sorted e l : StronglySorted evle l -> StronglySorted evle (insert_event e l).
Proof.
  induction l as [|y l IH]; intros H; cbn; [constructor; constructor|].
  inversion H as [|? ? H' F]; subst. destruct (Qle_bool (ev_start e) (ev_start y)) eqn:E.
  - qb. constructor; [exact H|]. constructor; [exact E|]. rewrite Forall_forall in *. intros x I.
    eapply Qle_trans; [exact E|apply F; exact I].
  - constructor; [apply IH; exact H'|]. apply Forall_forall. intros x I. apply insert_event_in in I.
    assert (L : (ev_start y <= ev_start e)%Q).
    { destruct (Qlt_le_dec (ev_start e) (ev_start y)) as [L|L]; [|exact L].
      apply Qlt_le_weak, Qle_bool_iff in L. congruence. }
    destruct I as [->|I]; [exact L|]. rewrite Forall_forall in F. apply F. exact I.
Qed.

Lemma sort_sorted l : StronglySorted evle (sort_events l).
Proof. induction l; cbn; [constructor|apply insert_event_sorted; assumption]. Qed.
Lemma sort_in l x : In x (sort_events l) <-> In x l.
Proof. induction l as [|y l IH]; cbn; [reflexivity|]. rewrite insert_event_in, IH. intuition congruence. Qed.

(** Stability: the events of one time stay in their order. *)
Lemma insert_filter (f : event -> bool) t e l :
  (forall x, f x = true -> (ev_start x == t)%Q) -> StronglySorted evle l ->
  filter f (insert_event e l) = (if f e then [e] else []) ++ filter f l.
Proof.
  intros T. induction l as [|y l IH]; intros H; cbn; [destruct (f e); reflexivity|].
  inversion H as [|? ? H' F]; subst. destruct (Qle_bool (ev_start e) (ev_start y)) eqn:E.
  - cbn. destruct (f e); reflexivity.
  - cbn. rewrite IH by exact H'. destruct (f e) eqn:FE; [|reflexivity].
    destruct (f y) eqn:FY; [|reflexivity]. exfalso. assert (X : (ev_start e == ev_start y)%Q) by (rewrite (T e FE), (T y FY); reflexivity).
    assert (L : (ev_start e <= ev_start y)%Q) by (rewrite X; apply Qle_refl). apply Qle_bool_iff in L. congruence.
Qed.
Lemma sort_filter (f : event -> bool) t l : (forall x, f x = true -> (ev_start x == t)%Q) ->
  filter f (sort_events l) = filter f l.
Proof.
  intros T. induction l as [|e l IH]; [reflexivity|]. cbn [sort_events fold_right].
  fold (sort_events l). rewrite (insert_filter f t) by (auto using sort_sorted). rewrite IH. cbn. destruct (f e); reflexivity.
Qed.

(** The times of the bins. *)
Lemma bin_times_spec : forall l last, StronglySorted evle l ->
  (forall t, last = Some t -> forall e, In e l -> (t <= ev_start e)%Q) ->
  StronglySorted Qlt (bin_times last l)
  /\ (forall t, In t (bin_times last l) -> exists e, In e l /\ t = ev_start e)
  /\ (forall t u, last = Some t -> In u (bin_times last l) -> (t < u)%Q)
  /\ (forall e, In e l -> (exists t, In t (bin_times last l) /\ (t == ev_start e)%Q) \/ (exists t, last = Some t /\ (t == ev_start e)%Q)).
Proof.
  induction l as [|e l IH]; intros last H L; cbn [bin_times].
  { split; [constructor|]. split; [intros ? []|]. split; [intros ? ? _ []|intros ? []]. }
  inversion H as [|? ? H' F]; subst. rewrite Forall_forall in F.
  destruct (match last with Some t => Qeq_bool (ev_start e) t | None => false end) eqn:E.
  - destruct (IH last H') as (A & B & C & D).
    { intros t T x I. apply (L t T). right. exact I. }
    split; [exact A|]. split.
    { intros t I. destruct (B t I) as (x & J & ->). exists x. split; [right; exact J|reflexivity]. }
    split; [exact C|]. intros x [<-|I]; [|auto]. right. destruct last as [t|]; [|discriminate]. qb.
    exists t. split; [reflexivity|symmetry; exact E].
  - destruct (IH (Some (ev_start e)) H') as (A & B & C & D).
    { intros t T x I. injection T as <-. apply F. exact I. }
    split.
    { constructor; [exact A|]. apply Forall_forall. intros u I. apply (C (ev_start e) u eq_refl I). }
    split.
    { intros t [<-|I]; [exists e; split; [left; reflexivity|reflexivity]|].
      destruct (B t I) as (x & J & ->). exists x. split; [right; exact J|reflexivity]. }
    split.
    { intros t u -> I. assert (X : (t < ev_start e)%Q).
      { apply q_lt_of_le_ne; [apply (L t eq_refl); left; reflexivity|]. intros Q. qb. apply E. symmetry. exact Q. }
      destruct I as [<-|I]; [exact X|]. eapply Qlt_trans; [exact X|]. apply (C _ _ eq_refl I). }
    intros x [<-|I].
    + left. exists (ev_start e). split; [left; reflexivity|reflexivity].
    + destruct (D x I) as [(t & J & Q)|(t & J & Q)].
      * left. exists t. split; [right; exact J|exact Q].
      * injection J as <-. left. exists (ev_start e). split; [left; reflexivity|exact Q].
Qed.

(** The events of a time, with and without a length. *)
Definition at_time (t : Q) (e : event) : bool := Qeq_bool (ev_start e) t.
Definition zero_at (t : Q) (e : event) : bool := at_time t e && negb (has_length e).
Definition nonzero_at (t : Q) (e : event) : bool := at_time t e && has_length e.

Definition filled (evs : list event) (t : Q) : bin := mkBin t (filter (zero_at t) evs) (filter (nonzero_at t) evs).

Lemma filed_event e evs t : (t == ev_start e)%Q -> file_event e (filled evs t) = filled (evs ++ [e]) t.
Proof.
  intros Q. assert (A : at_time t e = true) by (unfold at_time; apply qeq_iff; symmetry; exact Q).
  unfold file_event, filled. cbn [bin_time bin_zero bin_nonzero]. rewrite !filter_app. cbn [filter].
  assert (Z : zero_at t e = negb (has_length e)) by (unfold zero_at; rewrite A; reflexivity).
  assert (N : nonzero_at t e = has_length e) by (unfold nonzero_at; rewrite A; reflexivity).
  rewrite Z, N. destruct (has_length e); cbn [negb]; rewrite app_nil_r; reflexivity.
Qed.
Lemma other_event e evs t : ~ (t == ev_start e)%Q -> filled (evs ++ [e]) t = filled evs t.
Proof.
  intros Q. assert (A : at_time t e = false) by (unfold at_time; apply qeq_false; intros X; apply Q; symmetry; exact X).
  unfold filled. rewrite !filter_app. cbn [filter].
  assert (Z : zero_at t e = false) by (unfold zero_at; rewrite A; reflexivity).
  assert (N : nonzero_at t e = false) by (unfold nonzero_at; rewrite A; reflexivity).
  rewrite Z, N, !app_nil_r. reflexivity.
Qed.

Definition distinct (ts : list Q) : Prop := forall a x b y c, ts = a ++ x :: b ++ y :: c -> ~ (x == y)%Q.
Lemma distinct_tail x ts : distinct (x :: ts) -> distinct ts /\ forall y, In y ts -> ~ (x == y)%Q.
Proof.
  intros H. split.
  - intros a u b v c ->. apply (H (x :: a) u b v c eq_refl).
  - intros y I. apply in_split in I. destruct I as (b & c & ->). apply (H [] x b y c eq_refl).
Qed.
Lemma distinct_rev ts : distinct ts -> distinct (rev ts).
Proof.
  intros H a x b y c E Q. apply (H (rev c) y (rev b) x (rev a)); [|symmetry; exact Q].
  rewrite <- (rev_involutive ts), E, !rev_app_distr. cbn [rev]. rewrite rev_app_distr. cbn [rev].
  rewrite <- !app_assoc. reflexivity.
Qed.
Lemma sorted_distinct ts : StronglySorted Qlt ts -> distinct ts.
Proof.
  intros H a x b y c -> Q. induction a as [|z a IH]; cbn [app] in H; inversion H as [|? ? H' F]; subst; [|auto].
  rewrite Forall_forall in F. specialize (F y ltac:(apply in_or_app; right; left; reflexivity)).
  rewrite Q in F. exact (Qlt_irrefl _ F).
Qed.

Lemma file_rev_others e evs : forall ts, (forall t, In t ts -> ~ (t == ev_start e)%Q) ->
  map (filled (evs ++ [e])) ts = map (filled evs) ts.
Proof.
  intros ts H. apply map_ext_in. intros t I. apply other_event. auto.
Qed.
Lemma file_rev_spec e evs : forall ts, distinct ts ->
  file_rev e (map (filled evs) ts) = map (filled (evs ++ [e])) ts.
Proof.
  induction ts as [|t ts IH]; intros D; [reflexivity|]. apply distinct_tail in D. destruct D as (D & N).
  cbn [map file_rev]. change (bin_time (filled evs t)) with t.
  destruct (Qeq_bool t (ev_start e)) eqn:E; qb.
  - rewrite filed_event by exact E. f_equal. symmetry. apply file_rev_others. intros u I Q. apply (N u I).
    rewrite E, Q. reflexivity.
  - rewrite IH, other_event by assumption. reflexivity.
Qed.

Lemma file_all : forall evs done ts, distinct ts ->
  fold_left file evs (map (filled done) ts) = map (filled (done ++ evs)) ts.
Proof.
  induction evs as [|e evs IH]; intros done ts D; cbn [fold_left]; [rewrite app_nil_r; reflexivity|].
  unfold file at 2. rewrite <- map_rev, file_rev_spec by (apply distinct_rev; exact D).
  rewrite <- map_rev, rev_involutive, IH by exact D. rewrite <- app_assoc. reflexivity.
Qed.

Theorem sortEvents_spec events : exists times,
  StronglySorted Qlt times
  /\ (forall t, In t times -> exists e, In e events /\ t = ev_start e)
  /\ (forall e, In e events -> exists t, In t times /\ (t == ev_start e)%Q)
  /\ sortEvents events = map (filled events) times.
Proof.
  set (evs := sort_events events). exists (bin_times None evs).
  destruct (bin_times_spec evs None (sort_sorted events)) as (A & B & _ & D); [discriminate|].
  split; [exact A|]. split.
  { intros t I. destruct (B t I) as (e & J & ->). exists e. split; [apply sort_in; exact J|reflexivity]. }
  split.
  { intros e I. apply sort_in in I. destruct (D e I) as [X|(t & X & _)]; [exact X|discriminate]. }
  unfold sortEvents. fold evs. change (fun t => mkBin t [] []) with (filled []).
  rewrite (file_all evs [] _ (sorted_distinct _ A)). cbn [app]. apply map_ext. intros t. unfold filled.
  f_equal; apply (sort_filter _ t); intros x H; unfold zero_at, nonzero_at, at_time in H; qb; assumption.
Qed.

(** ** Hidden rests *)

(** Lengths following one another from one time to another. *)
Inductive tiles : Q -> list emitted -> Q -> Prop :=
| tiles_nil : forall t u, (t == u)%Q -> tiles t [] u
| tiles_rest : forall t s d r u, (s == t)%Q -> (0 < d)%Q -> tiles (s + d)%Q r u -> tiles t (HiddenRest s d :: r) u
| tiles_elem : forall t s e r u, (s == t)%Q -> tiles (s + el_length e)%Q r u -> tiles t (Element s e :: r) u.

Lemma tiles_eq t t' r u u' : (t == t')%Q -> (u == u')%Q -> tiles t r u -> tiles t' r u'.
Proof.
  intros T U H. revert t' u' T U. induction H; intros t' u' T U.
  - constructor. rewrite <- T, <- U. exact H.
  - constructor; [rewrite <- T; exact H|exact H0|]. apply IHtiles; [reflexivity|exact U].
  - constructor; [rewrite <- T; exact H|]. apply IHtiles; [reflexivity|exact U].
Qed.
Lemma tiles_app t a u b v : tiles t a u -> tiles u b v -> tiles t (a ++ b) v.
Proof.
  intros H. revert b v. induction H; intros b v B; cbn.
  - eapply tiles_eq; [symmetry; exact H|reflexivity|exact B].
  - constructor; auto.
  - constructor; auto.
Qed.

Lemma rests_tile : forall ds t, Forall (fun d => 0 < d)%Q ds ->
  tiles t (fst (rests_from t ds)) (t + total ds)%Q /\ (snd (rests_from t ds) == t + total ds)%Q.
Proof.
  induction ds as [|d ds IH]; intros t F; cbn.
  - split; [constructor; ring|ring].
  - inversion F as [|? ? P F']; subst. destruct (IH (t + d)%Q F') as (A & B).
    destruct (rests_from (t + d)%Q ds) as (es, u) eqn:E. cbn in *. split.
    + constructor; [reflexivity|exact P|]. eapply tiles_eq; [reflexivity| |exact A]. ring.
    + rewrite B. ring.
Qed.

Lemma split_parts q l : (0 < q)%Q -> getPowerOfTwoQuarterLengthsWithDotsAddingTo q = Some l ->
  (total l == q)%Q /\ Forall (fun d => 0 < d)%Q l.
Proof.
  intros P H. destruct (split_adds q l H) as (T & F). split; [exact T|]. destruct (F P) as [->|F'].
  - constructor; [exact P|constructor].
  - eapply Forall_impl; [|exact F']. cbn. tauto.
Qed.

(** Elements one after the other from an offset on, where every gap can be filled
    by one rest. *)
Fixpoint in_turn (from : Q) (els : list element) : Prop :=
  match els with
  | [] => True
  | e :: r =>
      if el_absorbed e then in_turn from r
      else (from <= el_offset e)%Q
           /\ ((from < el_offset e)%Q -> writable (el_offset e - from)%Q)
           /\ in_turn (el_offset e + el_length e)%Q r
  end.
(** Where the last of them ends. *)
Fixpoint last_end (from : Q) (els : list element) : Q :=
  match els with
  | [] => from
  | e :: r => if el_absorbed e then last_end from r else last_end (el_offset e + el_length e)%Q r
  end.

Lemma single_rest q : (0 < q)%Q -> writable q -> getPowerOfTwoQuarterLengthsWithDotsAddingTo q = Some [q].
Proof.
  intros P W. unfold getPowerOfTwoQuarterLengthsWithDotsAddingTo.
  apply isPowerOfTwoWithDots_spec in W; [|apply Qlt_le_weak; exact P]. rewrite W. reflexivity.
Qed.

Lemma writable_proper a b : (a == b)%Q -> (0 <= a)%Q -> writable a -> writable b.
Proof.
  intros E P W. apply isPowerOfTwoWithDots_spec in W; [|exact P]. rewrite (withDots_proper _ _ E) in W.
  apply isPowerOfTwoWithDots_spec; [rewrite <- E; exact P|exact W].
Qed.

Lemma last_end_eq : forall els a b, (a == b)%Q -> (last_end a els == last_end b els)%Q.
Proof.
  induction els as [|e els IH]; intros a b E; cbn; [exact E|]. destruct (el_absorbed e); [apply IH; exact E|reflexivity].
Qed.

Lemma elements_tile m : forall els cur from, (cur == m + from)%Q -> in_turn from els ->
  exists out, emit_elements m cur els = Some out /\ tiles cur out (m + last_end from els)%Q.
Proof.
  induction els as [|e els IH]; intros cur from C H; cbn [emit_elements in_turn last_end] in *.
  - exists []. split; [reflexivity|]. constructor. exact C.
  - destruct (el_absorbed e) eqn:A; [apply IH; assumption|].
    destruct H as (L & W & R). unfold gap_rests.
    destruct (qlt cur (m + el_offset e)) eqn:Q; qb.
    + assert (P : (from < el_offset e)%Q).
      { rewrite C in Q. apply (Qplus_lt_r _ _ m). exact Q. }
      assert (G : (m + el_offset e - cur == el_offset e - from)%Q) by (rewrite C; ring).
      assert (P' : (0 < el_offset e - from)%Q).
      { apply (Qplus_lt_r _ _ from). setoid_replace (from + 0)%Q with from by ring.
        setoid_replace (from + (el_offset e - from))%Q with (el_offset e) by ring. exact P. }
      assert (PG : (0 < m + el_offset e - cur)%Q) by (rewrite G; exact P').
      rewrite (single_rest _ PG).
      2: { apply (writable_proper (el_offset e - from)); [symmetry; exact G|apply Qlt_le_weak; exact P'|exact (W P)]. }
      destruct (IH (m + el_offset e + el_length e)%Q (el_offset e + el_length e)%Q) as (out & E & T); [ring|exact R|].
      rewrite E. eexists. split; [reflexivity|]. cbn [map app]. constructor; [reflexivity|exact PG|].
      constructor; [ring|]. exact T.
    + assert (X : (cur == m + el_offset e)%Q).
      { apply Qle_antisym; [|exact Q]. rewrite C. apply Qplus_le_r. exact L. }
      destruct (IH (cur + el_length e)%Q (el_offset e + el_length e)%Q) as (out & E & T); [rewrite X; ring|exact R|].
      rewrite E. eexists. split; [reflexivity|]. cbn [map app]. constructor; [symmetry; exact X|].
      eapply tiles_eq; [|reflexivity|exact T]. rewrite X. reflexivity.
Qed.

Theorem parse_tiles m d els es ee : (0 <= es)%Q -> in_turn es els ->
  exists out ends, parseEventsIn m d els es ee = Some (out ++ ends)
    /\ tiles m out (m + last_end es els)%Q
    /\ ((0 < ee)%Q -> tiles (m + d - ee)%Q ends (m + d)%Q) /\ ((ee <= 0)%Q -> ends = []).
Proof.
  intros P H. unfold parseEventsIn.
  assert (ST : exists starts cur, (if qlt 0 es then
                match getPowerOfTwoQuarterLengthsWithDotsAddingTo es with
                | Some durs => Some (rests_from m durs) | None => None end
              else Some ([], m)) = Some (starts, cur) /\ (cur == m + es)%Q /\ tiles m starts cur).
  { destruct (qlt 0 es) eqn:Q; qb.
    - destruct (getPowerOfTwoQuarterLengthsWithDotsAddingTo es) as [ds|] eqn:S; [|destruct (split_total _ S)].
      destruct (split_parts _ _ Q S) as (T & F). destruct (rests_tile ds m F) as (A & B).
      exists (fst (rests_from m ds)), (snd (rests_from m ds)). split; [destruct (rests_from m ds); reflexivity|].
      split; [rewrite B, T; reflexivity|]. eapply tiles_eq; [reflexivity| |exact A]. symmetry. exact B.
    - exists [], m. split; [reflexivity|]. assert (es == 0)%Q as Z by (apply Qle_antisym; assumption).
      split; [rewrite Z; ring|]. constructor. reflexivity. }
  destruct ST as (starts & cur & -> & C & TS).
  destruct (elements_tile m els cur es C H) as (mid & -> & TM).
  assert (EN : exists ends, (if qlt 0 ee then
                   match getPowerOfTwoQuarterLengthsWithDotsAddingTo ee with
                   | Some durs => Some (fst (rests_from (m + d - ee)%Q durs))
                   | None => None
                   end
                 else Some []) = Some ends /\ ((0 < ee)%Q -> tiles (m + d - ee)%Q ends (m + d)%Q) /\ ((ee <= 0)%Q -> ends = [])).
  { destruct (qlt 0 ee) eqn:Q; qb.
    - destruct (getPowerOfTwoQuarterLengthsWithDotsAddingTo ee) as [ds|] eqn:S; [|destruct (split_total _ S)].
      destruct (split_parts _ _ Q S) as (T & F). destruct (rests_tile ds (m + d - ee)%Q F) as (A & B).
      eexists. split; [reflexivity|]. split.
      + intros _. eapply tiles_eq; [reflexivity| |exact A]. rewrite T. ring.
      + intros L. exfalso. exact (Qle_not_lt _ _ L Q).
    - exists []. split; [reflexivity|]. split; [|reflexivity]. intros L. exfalso. exact (Qle_not_lt _ _ Q L). }
  destruct EN as (ends & -> & E1 & E2).
  exists (starts ++ mid), ends. split; [rewrite app_assoc; reflexivity|]. split; [|auto].
  eapply tiles_app; [exact TS|exact TM].
Qed.

(** The rests of any gap add up to the gap. *)
Fixpoint rest_total (l : list emitted) : Q :=
  match l with
  | [] => 0%Q
  | HiddenRest _ d :: r => (d + rest_total r)%Q
  | Element _ _ :: r => rest_total r
  end.
Lemma gap_total cur start rests : (cur < start)%Q -> gap_rests cur start = Some rests ->
  (rest_total rests == start - cur)%Q
  /\ forall x, In x rests -> exists s d, x = HiddenRest s d /\ (0 < d)%Q /\ (s == cur)%Q.
Proof.
  intros L H. unfold gap_rests in H. apply qlt_iff in L. rewrite L in H. qb.
  destruct (getPowerOfTwoQuarterLengthsWithDotsAddingTo (start - cur)%Q) as [ds|] eqn:E; [|discriminate].
  injection H as <-.
  assert (P : (0 < start - cur)%Q).
  { apply (Qplus_lt_r _ _ cur). setoid_replace (cur + 0)%Q with cur by ring.
    setoid_replace (cur + (start - cur))%Q with start by ring. exact L. }
  destruct (split_parts _ _ P E) as (T & F). split.
  - rewrite <- T. clear. induction ds as [|d ds IH]; cbn; [reflexivity|]. rewrite IH. reflexivity.
  - intros x I. apply in_map_iff in I. destruct I as (d & <- & J). exists cur, d. split; [reflexivity|].
    rewrite Forall_forall in F. split; [auto|reflexivity].
Qed.

(** ** The walk *)

Definition take1 (now : Q) (s : list bin) : list bin * list bin :=
  match s with
  | [] => ([], [])
  | b :: bs => if Qeq_bool (bin_time b) now then ([b], bs) else ([], s)
  end.
Lemma take1_all now s : fst (take1 now s) ++ snd (take1 now s) = s.
Proof. destruct s as [|b s]; [reflexivity|]. cbn. destruct (Qeq_bool (bin_time b) now); reflexivity. Qed.

Definition rest_of (now : Q) (p : nat * list bin) : nat * list bin := (fst p, snd (take1 now (snd p))).
Definition taken_of (now : Q) (p : nat * list bin) : list (nat * bin) := map (pair (fst p)) (fst (take1 now (snd p))).
Definition is_head (t : Q) (staves : list (nat * list bin)) : Prop := exists i b s, In (i, b :: s) staves /\ bin_time b = t.

Lemma take_now_spec now : forall staves next allEnd, exists n,
  take_now now next allEnd staves =
    (flat_map (taken_of now) staves, map (rest_of now) staves, n,
     allEnd && forallb (fun p => match snd p with [] => true | _ => false end) (map (rest_of now) staves))
  /\ (n = next \/ is_head n (map (rest_of now) staves))
  /\ ((next < 0)%Q -> (exists t, is_head t (map (rest_of now) staves)) -> is_head n (map (rest_of now) staves))
  /\ ((forall t, is_head t (map (rest_of now) staves) -> (0 <= t)%Q) ->
       (forall t, is_head t (map (rest_of now) staves) -> (n <= t)%Q) /\ ((0 <= next)%Q -> (n <= next)%Q)).
Proof.
  induction staves as [|(i, s) staves IH]; intros next allEnd.
  - exists next. cbn. rewrite andb_true_r. split; [reflexivity|]. split; [auto|]. split.
    + intros _ (t & j & b & r & [] & _).
    + intros _. split; [intros t (j & b & r & [] & _)|intros _; apply Qle_refl].
  - cbn [take_now map flat_map].
    set (ts := match s with [] => ([], []) | b :: bs => if Qeq_bool (bin_time b) now then ([(i, b)], bs) else ([], s) end).
    assert (TS : ts = (taken_of now (i, s), snd (rest_of now (i, s)))).
    { unfold ts, taken_of, rest_of. destruct s as [|b bs]; [reflexivity|]. cbn. destruct (Qeq_bool (bin_time b) now); reflexivity. }
    rewrite TS. clear ts TS. cbn [fst snd forallb].
    set (nx := match snd (rest_of now (i, s)) with
               | [] => (next, allEnd)
               | b :: _ => (if qlt next 0 || qlt (bin_time b) next then bin_time b else next, false) end).
    destruct nx as (next', allEnd') eqn:NX. destruct (IH next' allEnd') as (n & E & A & B & C). rewrite E.
    exists n. destruct (snd (rest_of now (i, s))) as [|b0 r0] eqn:RS; unfold nx in NX.
    + injection NX as <- <-. cbn [andb]. split.
      { f_equal. f_equal. f_equal. f_equal. unfold rest_of in *. cbn in *. rewrite RS. reflexivity. }
      assert (HD : forall t, is_head t (rest_of now (i, s) :: map (rest_of now) staves) <-> is_head t (map (rest_of now) staves)).
      { intros t. split; intros (j & b & r & I & T).
        - destruct I as [I|I]; [|exists j, b, r; auto]. rewrite (surjective_pairing (rest_of now (i, s))), RS in I. discriminate.
        - exists j, b, r. split; [right; exact I|exact T]. }
      split; [destruct A as [A|A]; [auto|right; apply HD; exact A]|]. split.
      * intros N (t & T). apply HD. apply B; [exact N|]. exists t. apply HD. exact T.
      * intros P. destruct C as (C1 & C2); [intros t T; apply P, HD, T|]. split; [|exact C2]. intros t T. apply C1, HD, T.
    + injection NX as E1 E2. subst allEnd'. split.
      { rewrite andb_false_r. cbn [andb]. f_equal. f_equal. f_equal. f_equal. unfold rest_of in *. cbn in *. rewrite RS. reflexivity. }
      assert (H0 : is_head (bin_time b0) (rest_of now (i, s) :: map (rest_of now) staves)).
      { exists i, b0, r0. split; [left|reflexivity]. rewrite (surjective_pairing (rest_of now (i, s))), RS. reflexivity. }
      assert (HD : forall t, is_head t (map (rest_of now) staves) -> is_head t (rest_of now (i, s) :: map (rest_of now) staves)).
      { intros t (j & b & r & I & T). exists j, b, r. split; [right; exact I|exact T]. }
      assert (HI : forall t, is_head t (rest_of now (i, s) :: map (rest_of now) staves) -> t = bin_time b0 \/ is_head t (map (rest_of now) staves)).
      { intros t (j & b & r & I & T). destruct I as [I|I]; [|right; exists j, b, r; auto]. left.
        rewrite (surjective_pairing (rest_of now (i, s))), RS in I. injection I as _ <- _. symmetry. exact T. }
      split.
      { destruct A as [A|A]; [|right; apply HD; exact A]. subst n. rewrite <- E1.
        destruct (qlt next 0 || qlt (bin_time b0) next); [right; exact H0|left; reflexivity]. }
      split.
      * intros N _. destruct A as [A|A]; [|apply HD; exact A]. subst n. rewrite <- E1.
        apply qlt_iff in N. rewrite N. cbn. exact H0.
      * intros P. assert (P0 : (0 <= bin_time b0)%Q) by (apply P; exact H0).
        destruct C as (C1 & C2); [intros t T; apply P, HD, T|].
        assert (N0 : (0 <= next')%Q).
        { rewrite <- E1. destruct (qlt next 0) eqn:Q; cbn; [exact P0|]. destruct (qlt (bin_time b0) next); [exact P0|]. qb. exact Q. }
        assert (NB : (next' <= bin_time b0)%Q).
        { rewrite <- E1. destruct (qlt next 0) eqn:Q; cbn; [apply Qle_refl|]. destruct (qlt (bin_time b0) next) eqn:Q2; [apply Qle_refl|]. qb. exact Q2. }
        split.
        -- intros t T. destruct (HI t T) as [->|T']; [|auto]. eapply Qle_trans; [apply C2; exact N0|exact NB].
        -- intros N. eapply Qle_trans; [apply C2; exact N0|]. rewrite <- E1. apply qlt_false in N. rewrite N. cbn.
           destruct (qlt (bin_time b0) next) eqn:Q; [qb; apply Qlt_le_weak; exact Q|apply Qle_refl].
Qed.

(** The events of one staff in a list of calls. *)
Definition of_staff (i : nat) (calls : list (Q * list (nat * bin))) : list bin :=
  flat_map (fun c => map snd (filter (fun p => Nat.eqb (fst p) i) (snd c))) calls.

Lemma taken_staff now i s : forall staves, NoDup (map fst staves) -> In (i, s) staves ->
  map snd (filter (fun p => Nat.eqb (fst p) i) (flat_map (taken_of now) staves)) = fst (take1 now s).
Proof.
  assert (Same : forall j l, map snd (filter (fun p : nat * bin => Nat.eqb (fst p) i) (map (pair j) l)) = if Nat.eqb j i then l else []).
  { intros j l. induction l as [|b l IH]; cbn; [destruct (Nat.eqb j i); reflexivity|].
    destruct (Nat.eqb j i); cbn; [rewrite IH; reflexivity|exact IH]. }
  assert (None : forall staves, ~ In i (map fst staves) ->
    map snd (filter (fun p => Nat.eqb (fst p) i) (flat_map (taken_of now) staves)) = []).
  { induction staves as [|(j, t) staves IH]; intros H; [reflexivity|]. cbn [flat_map].
    rewrite filter_app, map_app. unfold taken_of at 1. cbn [fst snd]. rewrite Same.
    destruct (Nat.eqb j i) eqn:E; [apply Nat.eqb_eq in E; subst; destruct H; left; reflexivity|].
    cbn. apply IH. intros I. apply H. right. exact I. }
  induction staves as [|(j, t) staves IH]; intros D I; [destruct I|]. cbn [flat_map map fst] in *.
  inversion D as [|? ? N D']; subst. rewrite filter_app, map_app. unfold taken_of at 1. cbn [fst snd]. rewrite Same.
  destruct I as [E|I].
  - injection E as -> ->. rewrite Nat.eqb_refl. rewrite None by exact N. apply app_nil_r.
  - destruct (Nat.eqb j i) eqn:E; [|cbn; apply IH; assumption].
    apply Nat.eqb_eq in E. subst j. destruct N. change i with (fst (i, s)). apply in_map. exact I.
Qed.

Lemma rest_fst now staves : map fst (map (rest_of now) staves) = map fst staves.
Proof. rewrite map_map. apply map_ext. intros (i, s). reflexivity. Qed.

Definition left_over (staves : list (nat * list bin)) : list bin := concat (map snd staves).

Theorem walk_staff : forall fuel next staves calls, walk fuel next staves = Some calls -> NoDup (map fst staves) ->
  forall i s, In (i, s) staves -> of_staff i calls = s.
Proof.
  induction fuel as [|fuel IH]; intros next staves calls H D i s I; [discriminate|]. cbn [walk] in H.
  destruct (take_now_spec next staves (-1)%Q true) as (n & E & _). rewrite E in H. cbn [andb] in H.
  set (all := forallb _ _) in H. destruct all eqn:AL.
  - injection H as <-. unfold of_staff. cbn [flat_map snd]. rewrite app_nil_r, (taken_staff next i s) by assumption.
    unfold all in AL. rewrite forallb_forall in AL.
    specialize (AL (rest_of next (i, s)) (in_map _ _ _ I)). cbn in AL.
    rewrite <- (take1_all next s) at 2. destruct (snd (take1 next s)); [rewrite app_nil_r; reflexivity|discriminate].
  - destruct (walk fuel n (map (rest_of next) staves)) as [more|] eqn:W; [|discriminate]. injection H as <-.
    unfold of_staff. cbn [flat_map snd]. fold (of_staff i more). rewrite (taken_staff next i s) by assumption.
    rewrite (IH _ _ _ W) with (s := snd (take1 next s)).
    + apply take1_all.
    + rewrite rest_fst. exact D.
    + change (i, snd (take1 next s)) with (rest_of next (i, s)). apply in_map. exact I.
Qed.

(** Every event handed over belongs to a staff and is at the time of the call. *)
Lemma walk_at : forall fuel next staves calls, walk fuel next staves = Some calls ->
  forall t now i b, In (t, now) calls -> In (i, b) now -> (bin_time b == t)%Q /\ In i (map fst staves).
Proof.
  assert (T : forall next staves i b, In (i, b) (flat_map (taken_of next) staves) -> (bin_time b == next)%Q /\ In i (map fst staves)).
  { intros next staves i b I. apply in_flat_map in I. destruct I as ((j, s) & J & I). unfold taken_of in I.
    apply in_map_iff in I. destruct I as (b' & E & I). injection E as -> ->. split.
    - unfold take1 in I. cbn in I. destruct s as [|c s]; [destruct I|].
      destruct (Qeq_bool (bin_time c) next) eqn:Q; [|destruct I]. qb. destruct I as [->|[]]. exact Q.
    - cbn. change i with (fst (i, s)). apply in_map. exact J. }
  induction fuel as [|fuel IH]; intros next staves calls H t now i b I J; [discriminate|]. cbn [walk] in H.
  destruct (take_now_spec next staves (-1)%Q true) as (n & E & _). rewrite E in H. cbn [andb] in H.
  set (all := forallb _ _) in H. destruct all eqn:AL.
  - injection H as <-. destruct I as [X|[]]. injection X as <- <-. apply T. exact J.
  - destruct (walk fuel n (map (rest_of next) staves)) as [more|] eqn:W; [|discriminate]. injection H as <-.
    destruct I as [X|I].
    + injection X as <- <-. apply T. exact J.
    + destruct (IH _ _ _ W _ _ _ _ I J) as (A & B). rewrite rest_fst in B. auto.
Qed.

(** It ends. *)
Lemma left_over_le now : forall staves, length (left_over (map (rest_of now) staves)) <= length (left_over staves).
Proof.
  unfold left_over. induction staves as [|(i, s) staves IH]; cbn; [lia|]. rewrite !app_length.
  destruct s as [|b s]; cbn; [lia|]. destruct (Qeq_bool (bin_time b) now); cbn; lia.
Qed.
Lemma left_over_lt now staves : is_head now staves -> length (left_over (map (rest_of now) staves)) < length (left_over staves).
Proof.
  intros (i & b & s & I & T). apply in_split in I. destruct I as (u & v & ->). rewrite map_app. cbn [map].
  pose proof (left_over_le now u). pose proof (left_over_le now v). unfold left_over in *.
  rewrite !map_app, !concat_app, !app_length. cbn [map concat]. rewrite !app_length. unfold rest_of at 2. cbn [snd take1].
  assert (Q : Qeq_bool (bin_time b) now = true) by (apply qeq_iff; rewrite T; reflexivity).
  cbn [fst snd]. rewrite Q. cbn [snd length]. lia.
Qed.

Lemma all_empty staves : forallb (fun p : nat * list bin => match snd p with [] => true | _ => false end) staves = false ->
  exists t, is_head t staves.
Proof.
  induction staves as [|(i, s) staves IH]; cbn; [discriminate|]. destruct s as [|b s].
  - intros H. destruct (IH H) as (t & j & c & r & I & T). exists t, j, c, r. split; [right; exact I|exact T].
  - intros _. exists (bin_time b), i, b, s. split; [left; reflexivity|reflexivity].
Qed.

Lemma walk_ends : forall fuel next staves, is_head next staves -> length (left_over staves) < fuel -> walk fuel next staves <> None.
Proof.
  induction fuel as [|fuel IH]; intros next staves H L; [lia|]. cbn [walk].
  destruct (take_now_spec next staves (-1)%Q true) as (n & E & _ & B & _). rewrite E. cbn [andb].
  pose proof (left_over_lt next staves H) as LL.
  set (all := forallb _ _). destruct all eqn:AL; [discriminate|].
  assert (N : is_head n (map (rest_of next) staves)) by (apply B; [reflexivity|apply all_empty; exact AL]).
  specialize (IH n _ N ltac:(lia)). destruct (walk fuel n (map (rest_of next) staves)); [discriminate|contradiction].
Qed.
Lemma walk_ends2 fuel next staves : length (left_over staves) < fuel -> walk (S fuel) next staves <> None.
Proof.
  intros L. cbn [walk].
  destruct (take_now_spec next staves (-1)%Q true) as (n & E & _ & B & _). rewrite E. cbn [andb].
  pose proof (left_over_le next staves) as LL.
  set (all := forallb _ _). destruct all eqn:AL; [discriminate|].
  assert (N : is_head n (map (rest_of next) staves)) by (apply B; [reflexivity|apply all_empty; exact AL]).
  pose proof (walk_ends fuel n _ N ltac:(lia)) as W. destruct (walk fuel n (map (rest_of next) staves)); [discriminate|contradiction].
Qed.

(** In time order. *)
Definition rising_bins (s : list bin) : Prop := StronglySorted (fun a b => bin_time a < bin_time b)%Q s /\ Forall (fun b => 0 <= bin_time b)%Q s.

Lemma rest_rising now s : rising_bins s -> rising_bins (snd (take1 now s)).
Proof.
  intros (A & B). destruct s as [|b s]; cbn; [split; constructor|].
  destruct (Qeq_bool (bin_time b) now); [|split; assumption]. inversion A; inversion B; subst. split; assumption.
Qed.
Lemma rest_after now s : rising_bins s -> (forall b, In b s -> (now <= bin_time b)%Q) -> forall b, In b (snd (take1 now s)) -> (now < bin_time b)%Q.
Proof.
  intros (A & _) G b I. destruct s as [|c s]; cbn in I; [destruct I|]. inversion A as [|? ? A' F]; subst. rewrite Forall_forall in F.
  destruct (Qeq_bool (bin_time c) now) eqn:Q; cbn in I; qb.
  - specialize (F b I). cbn in F. rewrite Q in F. exact F.
  - assert (X : (now < bin_time c)%Q).
    { apply q_lt_of_le_ne; [apply G; left; reflexivity|]. intros Y. apply Q. symmetry. exact Y. }
    destruct I as [<-|I]; [exact X|]. eapply Qlt_trans; [exact X|]. apply (F b I).
Qed.

Theorem walk_order : forall fuel next staves calls, walk fuel next staves = Some calls ->
  (forall i s, In (i, s) staves -> rising_bins s /\ forall b, In b s -> (next <= bin_time b)%Q) ->
  StronglySorted Qlt (map fst calls) /\ (exists now more, calls = (next, now) :: more).
Proof.
  induction fuel as [|fuel IH]; intros next staves calls H G; [discriminate|]. cbn [walk] in H.
  destruct (take_now_spec next staves (-1)%Q true) as (n & E & A & B & C). rewrite E in H. cbn [andb] in H.
  set (all := forallb _ _) in H. destruct all eqn:AL.
  - injection H as <-. split; [repeat constructor|eauto].
  - destruct (walk fuel n (map (rest_of next) staves)) as [more|] eqn:W; [|discriminate]. injection H as <-.
    assert (R : forall i s, In (i, s) (map (rest_of next) staves) -> rising_bins s /\ forall b, In b s -> (next < bin_time b)%Q).
    { intros i s I. apply in_map_iff in I. destruct I as ((j, t) & X & I). unfold rest_of in X. cbn in X. injection X as -> <-.
      destruct (G i t I) as (G1 & G2). split; [apply rest_rising; exact G1|]. apply rest_after; assumption. }
    assert (N : is_head n (map (rest_of next) staves)) by (apply B; [reflexivity|apply all_empty; exact AL]).
    assert (P : forall t, is_head t (map (rest_of next) staves) -> (0 <= t)%Q).
    { intros t (i & b & s & I & T). destruct (R _ _ I) as ((_ & F) & _). inversion F; subst. assumption. }
    destruct (C P) as (C1 & _).
    assert (NX : (next < n)%Q).
    { destruct N as (i & b & s & I & <-). destruct (R _ _ I) as (_ & L). apply L. left. reflexivity. }
    destruct (IH _ _ _ W) as (S1 & now & m & S2).
    { intros i s I. destruct (R i s I) as (R1 & R2). split; [exact R1|]. intros b J.
      destruct s as [|c s]; [destruct J|]. assert (L : (n <= bin_time c)%Q) by (apply C1; exists i, c, s; auto).
      destruct J as [<-|J]; [exact L|]. destruct R1 as (R1 & _). inversion R1 as [|? ? _ F]; subst. rewrite Forall_forall in F.
      eapply Qle_trans; [exact L|]. apply Qlt_le_weak. exact (F b J). }
    split; [|eauto]. cbn [map fst]. constructor; [exact S1|]. rewrite S2 in *. cbn [map fst] in *.
    constructor; [exact NX|]. inversion S1 as [|? ? _ F]; subst. eapply Forall_impl; [|exact F]. cbn. intros t T.
    eapply Qlt_trans; [exact NX|exact T].
Qed.

Lemma number_in {A} : forall (l : list A) k i x, In (i, x) (number k l) <-> exists j, i = k + j /\ nth_error l j = Some x.
Proof.
  induction l as [|y l IH]; intros k i x; cbn.
  - split; [intros []|intros (j & _ & H); destruct j; discriminate].
  - rewrite IH. split.
    + intros [E|(j & -> & N)]; [injection E as -> ->; exists 0; split; [lia|reflexivity]|].
      exists (S j). split; [lia|exact N].
    + intros (j & -> & N). destruct j as [|j]; [injection N as ->; left; f_equal; lia|].
      right. exists j. split; [lia|exact N].
Qed.
Lemma number_fst {A} : forall (l : list A) k, map fst (number k l) = seq k (length l).
Proof. induction l as [|x l IH]; intros k; cbn; [reflexivity|]. rewrite IH. reflexivity. Qed.
Lemma number_left : forall (l : list (list bin)) k, left_over (number k l) = concat l.
Proof. unfold left_over. induction l as [|x l IH]; intros k; cbn; [reflexivity|]. rewrite IH. reflexivity. Qed.

Lemma left_over_rev staves : length (left_over (rev staves)) = length (left_over staves).
Proof.
  unfold left_over. induction staves as [|s staves IH]; [reflexivity|]. cbn [rev map concat].
  rewrite map_app, concat_app, !app_length, IH. cbn. rewrite app_nil_r. lia.
Qed.

Theorem insert_ends staves : insertMeasure staves <> None.
Proof.
  unfold insertMeasure. change (2 + length (concat staves)) with (S (1 + length (concat staves))).
  apply walk_ends2. rewrite left_over_rev, number_left. lia.
Qed.

Lemma first_time_min : forall staves next, (0 <= next)%Q -> (forall s, In s staves -> s <> []) ->
  (forall s b r, In s staves -> s = b :: r -> (0 <= bin_time b)%Q) ->
  (0 <= first_time next staves)%Q /\ (first_time next staves <= next)%Q /\
  forall s b r, In s staves -> s = b :: r -> (first_time next staves <= bin_time b)%Q.
Proof.
  induction staves as [|s staves IH]; intros next N NE P; cbn [first_time].
  - split; [exact N|]. split; [apply Qle_refl|]. intros ? ? ? [].
  - destruct s as [|b s]; [destruct (NE [] (or_introl eq_refl) eq_refl)|].
    assert (P0 : (0 <= bin_time b)%Q) by (apply (P (b :: s) b s); [left; reflexivity|reflexivity]).
    pose proof N as N2. apply qlt_false in N2. rewrite N2.
    set (nx := if qlt (bin_time b) next then bin_time b else next).
    assert (X : (0 <= nx)%Q /\ (nx <= next)%Q /\ (nx <= bin_time b)%Q).
    { unfold nx. destruct (qlt (bin_time b) next) eqn:Q; qb.
      - split; [exact P0|]. split; [apply Qlt_le_weak; exact Q|apply Qle_refl].
      - split; [exact N|]. split; [apply Qle_refl|exact Q]. }
    destruct X as (X1 & X2 & X3).
    destruct (IH nx X1) as (A & B & C).
    + intros t I. apply NE. right. exact I.
    + intros t c r I. apply P. right. exact I.
    + split; [exact A|]. split; [eapply Qle_trans; eassumption|]. intros t c r [<-|I] E.
      * injection E as -> ->. eapply Qle_trans; eassumption.
      * eapply C; eassumption.
Qed.

Lemma first_time_same t0 : forall staves next, (0 <= t0)%Q ->
  (forall s b r, In s staves -> s = b :: r -> (bin_time b == t0)%Q) ->
  (next == t0)%Q \/ (next < 0)%Q -> (first_time next staves == t0)%Q \/ (first_time next staves < 0)%Q.
Proof.
  induction staves as [|s staves IH]; intros next P H N; cbn [first_time]; [exact N|].
  apply IH; [exact P|intros t b r I; apply H; right; exact I|].
  destruct s as [|b s].
  - destruct (qlt next 0) eqn:Q; [right; reflexivity|]. destruct (qlt (-1) next); [right; reflexivity|exact N].
  - assert (T : (bin_time b == t0)%Q) by (apply (H (b :: s) b s); [left; reflexivity|reflexivity]).
    destruct (qlt next 0) eqn:Q; [left; exact T|]. destruct (qlt (bin_time b) next); [left; exact T|exact N].
Qed.

(** The elements of what is written, with their times. *)
Fixpoint elements_of (l : list emitted) : list (Q * element) :=
  match l with
  | [] => []
  | HiddenRest _ _ :: r => elements_of r
  | Element t e :: r => (t, e) :: elements_of r
  end.
Lemma elements_app : forall a b, elements_of (a ++ b) = elements_of a ++ elements_of b.
Proof. induction a as [|[s d|s e] a IH]; intros b; cbn; [reflexivity|apply IH|rewrite IH; reflexivity]. Qed.
Lemma rests_no_elements : forall ds t, elements_of (fst (rests_from t ds)) = [].
Proof.
  induction ds as [|d ds IH]; intros t; [reflexivity|]. cbn. specialize (IH (t + d)%Q).
  destruct (rests_from (t + d)%Q ds) as (es, u). exact IH.
Qed.
Lemma emit_kept m : forall els cur out, emit_elements m cur els = Some out ->
  elements_of out = map (fun e => (m + el_offset e, e)%Q) (filter (fun e => negb (el_absorbed e)) els).
Proof.
  induction els as [|e els IH]; intros cur out H; cbn [emit_elements filter] in *; [injection H as <-; reflexivity|].
  destruct (el_absorbed e); cbn [negb]; [exact (IH _ _ H)|].
  destruct (gap_rests cur (m + el_offset e)%Q) as [rests|] eqn:G; [|discriminate].
  destruct (emit_elements m _ els) as [more|] eqn:E; [|discriminate]. injection H as <-.
  rewrite elements_app. cbn [elements_of map]. rewrite (IH _ _ E).
  assert (N : elements_of rests = []).
  { unfold gap_rests in G. destruct (qlt cur _); [|injection G as <-; reflexivity].
    destruct (getPowerOfTwoQuarterLengthsWithDotsAddingTo _) as [ds|]; [|discriminate]. injection G as <-.
    clear. induction ds as [|d ds IH]; [reflexivity|exact IH]. }
  rewrite N. reflexivity.
Qed.
Theorem parse_elements m d els es ee out : parseEventsIn m d els es ee = Some out ->
  elements_of out = map (fun e => (m + el_offset e, e)%Q) (filter (fun e => negb (el_absorbed e)) els).
Proof.
  unfold parseEventsIn. intros H.
  set (st := if qlt 0 es then _ else _) in H. destruct st as [(starts, cur)|] eqn:ST; [|discriminate].
  destruct (emit_elements m cur els) as [mid|] eqn:E; [|discriminate].
  set (en := if qlt 0 ee then _ else _) in H. destruct en as [ends|] eqn:EN; [|discriminate]. injection H as <-.
  rewrite !elements_app, (emit_kept _ _ _ _ E).
  assert (A : elements_of starts = []).
  { unfold st in ST. destruct (qlt 0 es); [|injection ST as <- _; reflexivity].
    destruct (getPowerOfTwoQuarterLengthsWithDotsAddingTo es) as [ds|]; [|discriminate]. injection ST as ST.
    pose proof (rests_no_elements ds m) as X. rewrite ST in X. exact X. }
  assert (B : elements_of ends = []).
  { unfold en in EN. destruct (qlt 0 ee); [|injection EN as <-; reflexivity].
    destruct (getPowerOfTwoQuarterLengthsWithDotsAddingTo ee) as [ds|]; [|discriminate]. injection EN as <-. apply rests_no_elements. }
  rewrite A, B, app_nil_r. reflexivity.
Qed.
