(** Proofs about the walk over the token graph (RhythmModel). *)
From Verif Require Import PyStr PyStrProofs RecipModel SpineModel LinkProofs RhythmModel.
From Coq Require Import QArith.
Local Close Scope Q_scope.

Lemma ref_eqb_eq a b : ref_eqb a b = true <-> a = b.
Proof.
  unfold ref_eqb. rewrite andb_true_iff, !Nat.eqb_eq. destruct a, b; cbn. split.
  - intros [-> ->]; reflexivity.
  - intros H; injection H; auto.
Qed.

Lemma upd_length {A} (l : list A) : forall i v, length (upd i v l) = length l.
Proof. induction l as [|x l IH]; intros [|i] v; cbn; auto. Qed.

Lemma nth_upd {A} (d : A) (l : list A) : forall i j v,
  nth j (upd i v l) d = if (i =? j) && (i <? length l) then v else nth j l d.
Proof.
  induction l as [|x l IH]; intros [|i] [|j] v; cbn [upd nth length]; try reflexivity.
  - rewrite andb_false_r. reflexivity.
  - rewrite IH. cbn [Nat.eqb]. reflexivity.
Qed.

Lemma neg_q_true q : neg_q q = true <-> (q < 0)%Q.
Proof.
  unfold neg_q, Qlt_bool. rewrite negb_true_iff. split.
  - intros H. apply Qnot_le_lt. intros X. apply Qle_bool_iff in X. congruence.
  - intros H. destruct (Qle_bool 0 q) eqn:E; [|reflexivity]. apply Qle_bool_iff in E.
    exfalso. apply (Qlt_not_le _ _ H E).
Qed.
Lemma neg_q_false q : neg_q q = false <-> (0 <= q)%Q.
Proof.
  unfold neg_q, Qlt_bool. rewrite negb_false_iff. apply Qle_bool_iff.
Qed.
Lemma Qlt_bool_true a b : Qlt_bool a b = true <-> (a < b)%Q.
Proof.
  unfold Qlt_bool. rewrite negb_true_iff. split.
  - intros H. apply Qnot_le_lt. intros X. apply Qle_bool_iff in X. congruence.
  - intros H. destruct (Qle_bool b a) eqn:E; [|reflexivity]. apply Qle_bool_iff in E.
    exfalso. apply (Qlt_not_le _ _ H E).
Qed.

Section Walk.
  Variable f : rfile.

  (** Links lead to later lines of the file (C17 proves this of the real links). *)
  Definition forward_links : Prop :=
    forall t n, In n (rf_next f t) -> fst t < fst n /\ fst n < length (rf_lines f).

  (** The lines that hold a terminator. *)
  Definition terminated_line (i : nat) : Prop := exists j, rf_term f (i, j) = true.

  Hypothesis FWD : forward_links.

  Lemma set_invalid t d st : rs_valid st = false -> rs_valid (setLineDurationFromStart f t d st) = false.
  Proof.
    intros H. unfold setLineDurationFromStart.
    repeat match goal with |- context [if ?b then _ else _] => destruct b end; auto.
  Qed.

  Lemma walk_invalid : forall fuel t s d res st res' st',
    walk f fuel t s d res st = Some (res', st') -> rs_valid st = false -> rs_valid st' = false.
  Proof.
    induction fuel as [|fuel IH]; intros t s d res st res' st' H V; [discriminate|].
    cbn [walk] in H. destruct (negb (s =? rs_seen st t)) eqn:E; [injection H as <- <-; exact V|].
    assert (V1 : rs_valid (setLineDurationFromStart f t d (bump t st)) = false) by (apply set_invalid; exact V).
    rewrite V1 in H. cbn [negb] in H. injection H as <- <-. exact V1.
  Qed.

  Lemma fold_none {A B} (g : A -> B -> option A) l :
    fold_left (fun o e => match o with None => None | Some s => g s e end) l None = None.
  Proof. induction l; cbn; auto. Qed.

  Lemma prepare_invalid : forall fuel t s d st st',
    prepareDurations f fuel t s d st = Some st' -> rs_valid st = false -> rs_valid st' = false.
  Proof.
    induction fuel as [|fuel IH]; intros t s d st st' H V; [discriminate|].
    cbn [prepareDurations] in H.
    destruct (walk f (S (length (rf_lines f))) t s d [] st) as [[res st1]|] eqn:W; [|discriminate].
    apply walk_invalid in W; [|exact V].
    remember (rev res) as l eqn:El. clear El res. revert st1 W H.
    induction l as [|e l IHl]; intros st1 W H; cbn [fold_left] in H; [congruence|].
    destruct (prepareDurations f fuel (fst e) s (snd e) st1) as [st2|] eqn:P.
    - apply (IHl st2); [|exact H]. eapply IH; eauto.
    - rewrite fold_none in H. discriminate.
  Qed.

  (** ** Enough fuel *)
  Lemma walk_total : forall fuel t s d res st,
    length (rf_lines f) - fst t < fuel ->
    exists res' st', walk f fuel t s d res st = Some (res', st') /\
      forall e, In e res' -> In e res \/ (fst t < fst (fst e) /\ fst (fst e) < length (rf_lines f)).
  Proof.
    induction fuel as [|fuel IH]; intros t0 s d0 res0 st0 L; [lia|].
    cbn [walk]. destruct (negb (s =? rs_seen st0 t0)); [do 2 eexists; split; [reflexivity|auto]|].
    destruct (negb (rs_valid _)); [do 2 eexists; split; [reflexivity|intros e []]|].
    destruct (rf_next f t0) as [|n0 ns] eqn:N.
    - destruct (rf_term f t0).
      + destruct (rs_valid _); do 2 eexists; (split; [reflexivity|]); [auto|intros e []].
      + do 2 eexists; split; [reflexivity|auto].
    - assert (F : forall n, In n (n0 :: ns) -> fst t0 < fst n /\ fst n < length (rf_lines f)).
      { intros n Hn. apply FWD. rewrite N. exact Hn. }
      destruct (F n0 (or_introl eq_refl)) as [F1 F2].
      destruct (IH n0 s (advance f t0 d0) (res0 ++ map (fun n => (n, advance f t0 d0)) ns)
                  (setLineDurationFromStart f t0 d0 (bump t0 st0))) as (r & st' & E & P); [lia|].
      exists r, st'. split; [exact E|]. intros e He. destruct (P e He) as [H|H]; [|right; lia].
      apply in_app_or in H. destruct H as [H|H]; [auto|]. right. apply in_map_iff in H.
      destruct H as (n & <- & Hn). cbn. apply F. right. exact Hn.
  Qed.

  Lemma prepare_total : forall fuel t s d st,
    length (rf_lines f) - fst t < fuel -> exists st', prepareDurations f fuel t s d st = Some st'.
  Proof.
    induction fuel as [|fuel IH]; intros t s d st L; [lia|]. cbn [prepareDurations].
    destruct (walk_total (S (length (rf_lines f))) t s d [] st) as (res & st1 & E & P); [lia|].
    destruct (walk f (S (length (rf_lines f))) t s d [] st) as [[r s1]|]; [|discriminate].
    injection E as -> ->.
    assert (Q1 : forall e, In e (rev res) -> fst t < fst (fst e) /\ fst (fst e) < length (rf_lines f)).
    { intros e He. apply in_rev in He. destruct (P e He) as [[]|H]; exact H. }
    remember (rev res) as l eqn:El. clear El P res. revert st1.
    induction l as [|e l IHl]; intros st1; cbn [fold_left]; [eexists; reflexivity|].
    pose proof (Q1 e (or_introl eq_refl)) as Q2.
    destruct (IH (fst e) s (snd e) st1) as (st2 & ->); [lia|].
    apply IHl. intros e' He'. apply Q1. right. exact He'.
  Qed.

  Lemma find_known_total : forall fuel t d st,
    length (rf_lines f) - fst t < fuel -> exists r, find_known f fuel t d st = Some r.
  Proof.
    induction fuel as [|fuel IH]; intros t d st L; [lia|]. cbn [find_known].
    destruct (negb (neg_q (start_of st t))); [eexists; reflexivity|].
    destruct (rf_next f t) as [|n0 ns] eqn:N; [eexists; reflexivity|].
    apply IH. destruct (FWD t n0) as [A B]; [rewrite N; left; reflexivity|]. lia.
  Qed.

  Lemma assign_total t d st : exists st', assignDurationsToTrack f t d st = Some st'.
  Proof.
    unfold assignDurationsToTrack. destruct (rf_rhythm f t); [|eexists; reflexivity].
    apply prepare_total. lia.
  Qed.

  Lemma over_starts_total (g : tokref -> rstate -> option rstate) :
    (forall t st, exists st', g t st = Some st') ->
    forall ts st, exists st', over_starts g ts st = Some st'.
  Proof.
    intros G ts. induction ts as [|[t|] ts IH]; intros st; cbn [over_starts]; [eexists; reflexivity| |apply IH].
    destruct (G t st) as (st' & ->). destruct (rs_valid st'); [apply IH|eexists; reflexivity].
  Qed.

  Lemma walk_result_total : exists st, walk_result f = Some st.
  Proof.
    unfold walk_result. destruct (tl (rf_starts f)) as [|[t1|] ts]; try (eexists; reflexivity).
    destruct (over_starts_total (first_pass f (fst t1))) with (ts := Some t1 :: ts) (st := initial f) as (st & ->).
    { intros t st. unfold first_pass. destruct (_ && _); [apply assign_total|eexists; reflexivity]. }
    destruct (rs_valid st); [|eexists; reflexivity].
    apply over_starts_total. intros t st0. unfold second_pass.
    destruct (_ && _); [|eexists; reflexivity].
    unfold analyzeRhythmOfFloatingSpine. destruct (find_known_total (S (length (rf_lines f))) t 0%Q st0) as ([a b] & ->); [lia|].
    destruct (Qeq_bool a 0); [eexists; reflexivity|apply assign_total].
  Qed.

  (** ** The clock *)

  (** Where a visit at time [q] comes from: a spine start, or a token that leads
      here and was visited at an earlier time. *)
  Definition from (roots : list tokref) (V : list (tokref * Q)) (t : tokref) (q : Q) : Prop :=
    (In t roots /\ q = 0%Q) \/
    exists p qp, In (p, qp) V /\ In t (rf_next f p) /\ q = advance f p qp.

  Record inv (roots : list tokref) (V pend : list (tokref * Q)) (st : rstate) : Prop := {
    i_nodup : NoDup (map fst V);
    i_seen : forall t, rs_seen st t = if in_dec ref_dec t (map fst V) then 1 else 0;
    i_from : forall t q, In (t, q) V -> from roots V t q;
    i_start : forall t q, In (t, q) V -> (0 <= rf_dur f t)%Q -> ~ terminated_line (fst t) ->
                (start_of st t == q)%Q;
    i_pos : forall t q, In (t, q) V -> (0 <= q)%Q;
    i_range : forall t q, In (t, q) V -> fst t < length (rf_lines f);
    i_closed : forall t q n, In (t, q) V -> In n (rf_next f t) -> In n (map fst V) \/ In n (map fst pend);
    i_pfrom : forall t q, In (t, q) pend -> from roots V t q;
    i_prange : forall t q, In (t, q) pend -> fst t < length (rf_lines f);
    i_ppos : forall t q, In (t, q) pend -> (0 <= q)%Q;
    i_len : length (rs_start st) = length (rf_lines f);
    i_lines : forall i, (nth i (rs_start st) (-1) == -1)%Q \/ (0 <= nth i (rs_start st) (-1))%Q
  }.

  Lemma from_incl roots V V' t q : incl V V' -> from roots V t q -> from roots V' t q.
  Proof. intros I [H|(p & qp & A & B & C)]; [left; exact H|right; exists p, qp; auto]. Qed.

  Lemma advance_pos t q : (0 <= q)%Q -> (0 <= advance f t q)%Q.
  Proof.
    unfold advance. intros H. destruct (Qlt_bool 0 (rf_dur f t)) eqn:E; [|exact H].
    apply Qlt_bool_true in E. apply Qlt_le_weak in E.
    setoid_replace 0%Q with (0 + 0)%Q by reflexivity. apply Qplus_le_compat; assumption.
  Qed.

  Lemma Qmax_l a b : (a <= Qmax a b)%Q.
  Proof.
    unfold Qmax. destruct (Qle_bool a b) eqn:E; [apply Qle_bool_iff; exact E|apply Qle_refl].
  Qed.

  (** Effect of setLineDurationFromStart when it succeeds. *)
  Lemma set_effect t d st :
    rs_valid (setLineDurationFromStart f t d st) = true -> (0 <= d)%Q ->
    fst t < length (rs_start st) ->
    (forall i, (nth i (rs_start st) (-1) == -1)%Q \/ (0 <= nth i (rs_start st) (-1))%Q) ->
    let st' := setLineDurationFromStart f t d st in
    rs_seen st' = rs_seen st /\ length (rs_start st') = length (rs_start st) /\
    (forall i, (nth i (rs_start st') (-1) == -1)%Q \/ (0 <= nth i (rs_start st') (-1))%Q) /\
    (forall i, ~ terminated_line i -> (0 <= nth i (rs_start st) (-1))%Q ->
       (nth i (rs_start st') (-1) == nth i (rs_start st) (-1))%Q) /\
    ((0 <= rf_dur f t)%Q -> ~ terminated_line (fst t) -> (start_of st' t == d)%Q).
  Proof.
    intros V Dp R L st'. subst st'. unfold setLineDurationFromStart in *.
    destruct (negb (rf_term f t) && neg_q (rf_dur f t)) eqn:E1.
    - apply andb_true_iff in E1. destruct E1 as [_ E1]. apply neg_q_true in E1.
      repeat split; auto. intros H _. exfalso. apply (Qlt_not_le _ _ E1 H).
    - assert (NT : forall i, ~ terminated_line i -> i = fst t -> rf_term f t = false).
      { intros i Hi ->. destruct (rf_term f t) eqn:T; [|reflexivity]. exfalso. apply Hi.
        exists (snd t). destruct t; exact T. }
      destruct (Qeq_bool (start_of st t) (-1)) eqn:E2.
      + apply Qeq_bool_iff in E2. cbn [set_start rs_seen rs_start rs_valid] in *.
        assert (B : (fst t <? length (rs_start st)) = true) by (apply Nat.ltb_lt; exact R).
        split; [reflexivity|]. split; [apply upd_length|]. split; [|split].
        * intros i. rewrite nth_upd, B, andb_true_r. destruct (fst t =? i); [right; exact Dp|apply L].
        * intros i _ Hi. rewrite nth_upd, B, andb_true_r. destruct (fst t =? i) eqn:X; [|reflexivity].
          apply Nat.eqb_eq in X. subst i. unfold start_of in E2. rewrite E2 in Hi. exfalso.
          apply (Qle_not_lt _ _ Hi). reflexivity.
        * intros _ _. unfold start_of. cbn [set_start rs_start]. rewrite nth_upd, B, Nat.eqb_refl. reflexivity.
      + destruct (Qeq_bool (start_of st t) d) eqn:E3.
        * apply Qeq_bool_iff in E3. repeat split; auto.
        * destruct (rf_term f t) eqn:T; [|cbn in V; discriminate].
          cbn [set_start rs_seen rs_start rs_valid] in *.
          assert (B : (fst t <? length (rs_start st)) = true) by (apply Nat.ltb_lt; exact R).
          split; [reflexivity|]. split; [apply upd_length|]. split; [|split].
          -- intros i. rewrite nth_upd, B, andb_true_r. destruct (fst t =? i); [|apply L]. right.
             destruct (L (fst t)) as [X|X]; fold (start_of st t) in X.
             ++ apply Qeq_bool_iff in X. congruence.
             ++ apply (Qle_trans _ _ _ X). apply Qmax_l.
          -- intros i Hi _. rewrite nth_upd, B, andb_true_r. destruct (fst t =? i) eqn:X; [|reflexivity].
             apply Nat.eqb_eq in X. symmetry in X. pose proof (NT _ Hi X). congruence.
          -- intros _ Hi. pose proof (NT _ Hi eq_refl). congruence.
  Qed.

  (** A visit of an unseen pending token. *)
  Lemma visit_inv roots V pend st t d st1 :
    inv roots V ((t, d) :: pend) st -> rs_seen st t = 0 ->
    st1 = setLineDurationFromStart f t d (bump t st) -> rs_valid st1 = true ->
    inv roots ((t, d) :: V) (map (fun n => (n, advance f t d)) (rf_next f t) ++ pend) st1.
  Proof.
    intros [N S F ST P R C PF PR PP LN LL] H0 -> VA.
    assert (NV : ~ In t (map fst V)).
    { rewrite S in H0. destruct (in_dec ref_dec t (map fst V)); [discriminate|assumption]. }
    assert (dp : (0 <= d)%Q) by (apply (PP t); left; reflexivity).
    assert (Rt : fst t < length (rf_lines f)) by (apply (PR t d); left; reflexivity).
    destruct (set_effect t d (bump t st) VA dp) as (E1 & E2 & E3 & E4 & E5).
    { cbn [bump rs_start]. lia. }
    { exact LL. }
    set (st1 := setLineDurationFromStart f t d (bump t st)) in *.
    cbn [bump rs_start rs_seen rs_valid] in *.
    assert (I : incl V ((t, d) :: V)) by (intros x Hx; right; exact Hx).
    split.
    - cbn. constructor; assumption.
    - intros x. rewrite E1. rewrite S. cbn [map fst].
      destruct (ref_eqb x t) eqn:X.
      + apply ref_eqb_eq in X. subst x.
        destruct (in_dec ref_dec t (map fst V)); [contradiction|].
        destruct (in_dec ref_dec t (t :: map fst V)) as [|B]; [reflexivity|exfalso; apply B; left; reflexivity].
      + assert (XN : x <> t) by (intros ->; rewrite (proj2 (ref_eqb_eq t t) eq_refl) in X; discriminate).
        destruct (in_dec ref_dec x (map fst V)) as [A|A]; destruct (in_dec ref_dec x (t :: map fst V)) as [B|B];
          try reflexivity; exfalso.
        * apply B. right. exact A.
        * destruct B as [B|B]; [apply XN; symmetry; exact B|contradiction].
    - intros x q [H|H]; [injection H as <- <-|].
      + eapply from_incl; [exact I|]. apply PF. left. reflexivity.
      + eapply from_incl; [exact I|]. apply F. exact H.
    - intros x q [H|H] Hd Ht; [injection H as <- <-; apply E5; assumption|].
      specialize (ST x q H Hd Ht). unfold start_of in *. rewrite E4; [exact ST|exact Ht|].
      rewrite ST. apply (P x). exact H.
    - intros x q [H|H]; [injection H as <- <-; exact dp|eapply P; exact H].
    - intros x q [H|H]; [injection H as <- <-; exact Rt|eapply R; exact H].
    - intros x q n [H|H] Hn.
      + injection H as <- <-. right. rewrite map_app, in_app_iff. left. rewrite map_map. cbn [fst].
        rewrite map_id. exact Hn.
      + destruct (C x q n H Hn) as [A|A]; [left; right; exact A|].
        cbn [map fst] in A. destruct A as [A|A]; [left; left; exact A|].
        right. rewrite map_app, in_app_iff. right. exact A.
    - intros x q H. apply in_app_or in H. destruct H as [H|H].
      + apply in_map_iff in H. destruct H as (n & E & Hn). injection E as <- <-.
        right. exists t, d. split; [left; reflexivity|]. auto.
      + eapply from_incl; [exact I|]. apply PF. right. exact H.
    - intros x q H. apply in_app_or in H. destruct H as [H|H].
      + apply in_map_iff in H. destruct H as (n & E & Hn). injection E as <- <-. apply (FWD t n Hn).
      + apply (PR x q). right. exact H.
    - intros x q H. apply in_app_or in H. destruct H as [H|H].
      + apply in_map_iff in H. destruct H as (n & E & Hn). injection E as <- <-. apply advance_pos. exact dp.
      + apply (PP x). right. exact H.
    - rewrite E2. exact LN.
    - exact E3.
  Qed.

  (** Setting the time of a line again (the terminator at the end of a track). *)
  Lemma reset_inv roots V pend st t d st1 :
    inv roots V pend st -> (0 <= d)%Q -> fst t < length (rf_lines f) -> rf_term f t = true ->
    st1 = setLineDurationFromStart f t d st -> rs_valid st1 = true -> inv roots V pend st1.
  Proof.
    intros [N S F ST P R C PF PR PP LN LL] dp Rt T -> VA.
    destruct (set_effect t d st VA dp) as (E1 & E2 & E3 & E4 & E5); [lia|exact LL|].
    split; auto.
    - intros x. rewrite E1. apply S.
    - intros x q H Hd Ht. specialize (ST x q H Hd Ht). unfold start_of in *.
      rewrite E4; [exact ST|exact Ht|]. rewrite ST. apply (P x). exact H.
    - congruence.
  Qed.

  Lemma inv_pend roots V pend pend' st :
    inv roots V pend st -> (forall e, In e pend <-> In e pend') -> inv roots V pend' st.
  Proof.
    intros [N S F ST P R C PF PR PP LN LL] E. split; auto.
    - intros t q n A B. destruct (C t q n A B) as [X|X]; [left; exact X|right].
      apply in_map_iff in X. destruct X as (e & <- & He). apply in_map. apply E. exact He.
    - intros t q H. apply PF. apply E. exact H.
    - intros t q H. apply (PR t q). apply E. exact H.
    - intros t q H. apply (PP t). apply E. exact H.
  Qed.

  (** A pending token that has been seen can be dropped. *)
  Lemma inv_drop roots V pend st t d :
    inv roots V ((t, d) :: pend) st -> rs_seen st t <> 0 -> inv roots V pend st.
  Proof.
    intros [N S F ST P R C PF PR PP LN LL] H0.
    assert (NV : In t (map fst V)).
    { rewrite S in H0. destruct (in_dec ref_dec t (map fst V)); [assumption|congruence]. }
    split; auto.
    - intros x q n A B. destruct (C x q n A B) as [X|[X|X]]; auto. cbn in X. subst n. left; exact NV.
    - intros x q H. apply PF. right. exact H.
    - intros x q H. apply (PR x q). right. exact H.
    - intros x q H. apply (PP x). right. exact H.
  Qed.

  Lemma walk_inv : forall fuel roots V t d res out st res' st',
    inv roots V ((t, d) :: res ++ out) st ->
    walk f fuel t 0 d res st = Some (res', st') -> rs_valid st' = true ->
    exists V', inv roots V' (res' ++ out) st' /\ incl V V'.
  Proof.
    induction fuel as [|fuel IH]; intros roots V t d res out st res' st' I W VA; [discriminate|].
    cbn [walk] in W. destruct (0 =? rs_seen st t) eqn:E0; cbn [negb] in W.
    - apply Nat.eqb_eq in E0. symmetry in E0.
      remember (setLineDurationFromStart f t d (bump t st)) as st1 eqn:Est1.
      destruct (rs_valid st1) eqn:V1; cbn [negb] in W.
      + pose proof (visit_inv _ _ _ _ _ _ _ I E0 Est1 V1) as I1.
        assert (INC : incl V ((t, d) :: V)) by (intros x Hx; right; exact Hx).
        destruct (rf_next f t) as [|n0 ns] eqn:Nx.
        * cbn [map app] in I1. destruct (rf_term f t) eqn:T.
          -- cbv zeta in W. remember (setLineDurationFromStart f t (advance f t d) st1) as st2 eqn:Est2.
             destruct (rs_valid st2) eqn:V2; injection W as <- <-; [|congruence].
             exists ((t, d) :: V). split; [|exact INC].
             eapply reset_inv; [exact I1| | |exact T|exact Est2|exact V2].
             ++ apply advance_pos. apply (i_ppos _ _ _ _ I t). left. reflexivity.
             ++ apply (i_prange _ _ _ _ I t d). left. reflexivity.
          -- injection W as <- <-. exists ((t, d) :: V). split; [exact I1|exact INC].
        * cbn [map app] in I1.
          destruct (IH roots ((t, d) :: V) n0 (advance f t d) (res ++ map (fun n => (n, advance f t d)) ns) out st1 res' st')
            as (V' & IV & INC'); [|exact W|exact VA|].
          -- eapply inv_pend; [exact I1|]. intros e. cbn [In]. rewrite !in_app_iff. tauto.
          -- exists V'. split; [exact IV|]. intros x Hx. apply INC'. apply INC. exact Hx.
      + injection W as <- <-. congruence.
    - apply Nat.eqb_neq in E0. injection W as <- <-. exists V. split; [|intros x Hx; exact Hx].
      eapply inv_drop; [exact I|]. lia.
  Qed.

  Lemma prepare_inv : forall fuel roots V t d out st st',
    inv roots V ((t, d) :: out) st ->
    prepareDurations f fuel t 0 d st = Some st' -> rs_valid st' = true ->
    exists V', inv roots V' out st' /\ incl V V'.
  Proof.
    induction fuel as [|fuel IH]; intros roots V t d out st st' I H VA; [discriminate|].
    cbn [prepareDurations] in H.
    destruct (walk f (S (length (rf_lines f))) t 0 d [] st) as [[res st1]|] eqn:W; [|discriminate].
    assert (GEN : forall l st1 V, inv roots V (l ++ out) st1 ->
      fold_left (fun o e => match o with None => None
        | Some s => prepareDurations f fuel (fst e) 0 (snd e) s end) l (Some st1) = Some st' ->
      exists V', inv roots V' out st' /\ incl V V').
    { clear - IH VA. intros l. induction l as [|[n q] l IHl]; intros st1 V I H; cbn [fold_left] in H.
      - injection H as <-. exists V. split; [exact I|intros x Hx; exact Hx].
      - cbn [fst snd] in H. destruct (prepareDurations f fuel n 0 q st1) as [st2|] eqn:P.
        + assert (V2 : rs_valid st2 = true).
          { destruct (rs_valid st2) eqn:X; [reflexivity|]. exfalso.
            assert (forall l s, fold_left (fun o e => match o with None => None
                | Some s => prepareDurations f fuel (fst e) 0 (snd e) s end) l (Some s) = Some st' ->
                rs_valid s = false -> rs_valid st' = false) as Z.
            { clear. induction l as [|e l IHl]; intros s H V; cbn [fold_left] in H; [congruence|].
              destruct (prepareDurations f fuel (fst e) 0 (snd e) s) as [s2|] eqn:P.
              - apply (IHl s2 H). eapply prepare_invalid; eauto.
              - rewrite fold_none in H. discriminate. }
            rewrite (Z l st2 H X) in VA. discriminate. }
          destruct (IH roots V n q (l ++ out) st1 st2 I P V2) as (V' & I' & INC).
          destruct (IHl st2 V' I' H) as (V'' & I'' & INC'). exists V''. split; [exact I''|].
          intros x Hx. apply INC', INC, Hx.
        + rewrite fold_none in H. discriminate. }
    assert (V1 : rs_valid st1 = true).
    { destruct (rs_valid st1) eqn:X; [reflexivity|]. exfalso.
      assert (Z : rs_valid st' = false).
      { clear - H X. remember (rev res) as l eqn:El. clear El. revert st1 X H.
        induction l as [|e l IHl]; intros st1 X H; cbn [fold_left] in H; [congruence|].
        destruct (prepareDurations f fuel (fst e) 0 (snd e) st1) as [s2|] eqn:P.
        - apply (IHl s2); [|exact H]. eapply prepare_invalid; eauto.
        - rewrite fold_none in H. discriminate. }
      congruence. }
    destruct (walk_inv _ _ _ _ _ [] _ _ _ _ I W V1) as (V' & I' & INC).
    destruct (GEN (rev res) st1 V') as (V'' & I'' & INC'); [|exact H|].
    - eapply inv_pend; [exact I'|]. intros e. rewrite !in_app_iff, <- in_rev. tauto.
    - exists V''. split; [exact I''|]. intros x Hx. apply INC', INC, Hx.
  Qed.
End Walk.
