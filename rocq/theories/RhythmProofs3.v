(** Null lines between two timed lines, and the clock theorem for texts. *)
From Verif Require Import PyStr PyStrProofs RecipModel LayoutModel TextModel SpineModel SpineProofs LinkProofs.
From Verif Require Import RhythmModel RhythmProofs RhythmProofs2.
From Coq Require Import QArith Qfield.
Local Close Scope Q_scope.

(** ** Null lines *)

(** A line that fixes a time: spined, not all null, with a start time. *)
Definition anchor (l : rline) (q : Q) : Prop := l_spines l = true /\ l_allnull l = false /\ known q.
(** A line the analysis of null lines steps over. *)
Definition quiet (l : rline) (q : Q) : Prop :=
  l_spines l = false \/ (l_barline l = false /\ l_allnull l = true) \/
  (l_barline l = false /\ l_allnull l = false /\ l_data l = false /\ ~ known q).
Definition null_data (l : rline) : bool := l_spines l && l_allnull l && l_data l.

(** Indexes of the null data lines of [lines], the first having index [i]. *)
Fixpoint null_positions (i : nat) (lines : list rline) : list nat :=
  match lines with
  | [] => []
  | l :: ls => if null_data l then i :: null_positions (S i) ls else null_positions (S i) ls
  end.

Lemma null_positions_range : forall lines i n, In n (null_positions i lines) -> i <= n < i + length lines.
Proof.
  induction lines as [|l lines IH]; intros i n H; [destruct H|]. cbn [null_positions length] in *.
  destruct (null_data l); [destruct H as [<-|H]|]; try lia; apply IH in H; lia.
Qed.
Lemma null_positions_nodup : forall lines i, NoDup (null_positions i lines).
Proof.
  induction lines as [|l lines IH]; intros i; cbn [null_positions]; [constructor|].
  destruct (null_data l); [constructor; [|apply IH]|apply IH].
  intros X. apply null_positions_range in X. lia.
Qed.

(** Only pending and later lines change. *)
Lemma null_loop_later : forall lines i prev nulls starts r,
  null_loop i lines prev nulls starts = Some r ->
  forall m, ~ In m nulls -> m < i -> nth m r (-1)%Q = nth m starts (-1)%Q.
Proof.
  induction lines as [|l lines IH]; intros i prev nulls starts r H m N L; cbn [null_loop] in H; [congruence|].
  destruct (negb (l_spines l)); [eapply IH; eauto; lia|].
  assert (N' : ~ In m (if l_barline l then [] else nulls)) by (destruct (l_barline l); [intros []|exact N]).
  destruct (l_allnull l).
  - eapply IH in H; [exact H| |lia]. intros X. destruct (l_data l); [|contradiction].
    apply in_app_or in X. destruct X as [X|[X|[]]]; [contradiction|lia].
  - destruct (neg_q (nth i starts (-1)%Q)).
    + destruct (l_data l); [discriminate|]. eapply IH; eauto; lia.
    + destruct (if l_barline l then None else prev) as [p|].
      * eapply IH in H; [rewrite H|intros []|lia]. apply spread_other. exact N'.
      * eapply IH in H; [exact H|intros []|lia].
Qed.

Lemma null_loop_quiet : forall mid i rest prev nulls starts,
  (forall k l, nth_error mid k = Some l -> quiet l (nth (i + k) starts (-1)%Q)) ->
  null_loop i (mid ++ rest) prev nulls starts =
  null_loop (i + length mid) rest prev (nulls ++ null_positions i mid) starts.
Proof.
  induction mid as [|l mid IH]; intros i rest prev nulls starts Q1.
  - cbn [app length null_positions]. rewrite Nat.add_0_r, app_nil_r. reflexivity.
  - pose proof (Q1 0 l eq_refl) as Ql. rewrite Nat.add_0_r in Ql.
    assert (Q2 : forall k l, nth_error mid k = Some l -> quiet l (nth (S i + k) starts (-1)%Q)).
    { intros k l' H. replace (S i + k) with (i + S k) by lia. apply Q1. exact H. }
    cbn [app null_loop length null_positions]. unfold null_data.
    replace (i + S (length mid)) with (S i + length mid) by lia.
    destruct Ql as [Ql|[[B A]|(B & A & D & K)]].
    + rewrite Ql. cbn [negb andb]. apply IH. exact Q2.
    + rewrite A, B. destruct (l_spines l); cbn [negb andb].
      * destruct (l_data l).
        -- rewrite IH by exact Q2. rewrite <- app_assoc. reflexivity.
        -- apply IH. exact Q2.
      * apply IH. exact Q2.
    + rewrite A, B, D. destruct (l_spines l); cbn [negb andb]; [|apply IH; exact Q2].
      destruct (neg_q (nth i starts (-1)%Q)) eqn:E; [apply IH; exact Q2|].
      exfalso. apply K. apply neg_q_false. exact E.
Qed.

(** Reaching a line that fixes a time. *)
Lemma null_loop_reach lines0 : forall pre i l rest prev nulls starts r,
  (forall k, k < length (pre ++ l :: rest) -> nth_error lines0 (i + k) = nth_error (pre ++ l :: rest) k) ->
  (forall n, In n nulls -> n < i + length pre /\ exists l, nth_error lines0 n = Some l /\ l_allnull l = true /\ l_data l = true) ->
  anchor l (nth (i + length pre) starts (-1)%Q) -> 
  null_loop i (pre ++ l :: rest) prev nulls starts = Some r ->
  exists starts', null_loop (S (i + length pre)) rest (Some (i + length pre)) [] starts' = Some r /\
    length starts' = length starts /\
    forall m, (forall l, nth_error lines0 m = Some l -> l_allnull l && l_data l = false) \/ i + length pre <= m ->
      nth m starts' (-1)%Q = nth m starts (-1)%Q.
Proof.
  induction pre as [|x pre IH]; intros i l rest prev nulls starts r E N A H.
  - cbn [app length] in *. rewrite Nat.add_0_r in *. cbn [null_loop] in H. destruct A as (A1 & A2 & A3).
    rewrite A1, A2 in H. cbn [negb] in H. pose proof (proj2 (neg_q_false _) A3) as K. rewrite K in H.
    destruct (if l_barline l then None else prev) as [p|].
    + eexists. split; [exact H|]. split; [apply spread_length|]. intros m Hm. apply spread_other. intros X.
      assert (X' : In m nulls) by (destruct (l_barline l); [destruct X|exact X]).
      destruct (N m X') as (R & y & Y1 & Y2 & Y3). destruct Hm as [Hm|Hm]; [|lia].
      specialize (Hm _ Y1). rewrite Y2, Y3 in Hm. discriminate.
    + eexists. split; [exact H|]. auto.
  - cbn [app length] in *.
    assert (Ex : nth_error lines0 i = Some x).
    { specialize (E 0). rewrite Nat.add_0_r in E. apply E. lia. }
    assert (E' : forall k, k < length (pre ++ l :: rest) -> nth_error lines0 (S i + k) = nth_error (pre ++ l :: rest) k).
    { intros k Hk. specialize (E (S k)). replace (i + S k) with (S i + k) in E by lia. apply E. lia. }
    replace (i + S (length pre)) with (S i + length pre) in * by lia.
    cbn [null_loop] in H.
    destruct (negb (l_spines x)); [eapply IH; eauto|].
    assert (N' : forall n, In n (if l_barline x then [] else nulls) -> n < S i + length pre /\ exists l, nth_error lines0 n = Some l /\ l_allnull l = true /\ l_data l = true).
    { destruct (l_barline x); [intros n []|exact N]. }
    destruct (l_allnull x) eqn:Ax.
    + eapply IH; [exact E'| |exact A|exact H]. intros n Hn. destruct (l_data x) eqn:D; [|apply N'; exact Hn].
      apply in_app_or in Hn. destruct Hn as [Hn|[<-|[]]]; [apply N'; exact Hn|]. split; [lia|]. exists x. auto.
    + destruct (neg_q (nth i starts (-1)%Q)).
      * destruct (l_data x); [discriminate|]. eapply IH; eauto.
      * destruct (if l_barline x then None else prev) as [p|].
        -- assert (SP : forall m, (forall l, nth_error lines0 m = Some l -> l_allnull l && l_data l = false) \/ S i + length pre <= m ->
              forall v w, nth m (spread v w 0 (if l_barline x then [] else nulls) starts) (-1)%Q = nth m starts (-1)%Q).
           { intros m Hm v w. apply spread_other. intros X. destruct (N' m X) as (R & y & Y1 & Y2 & Y3).
             destruct Hm as [Hm|Hm]; [|lia]. specialize (Hm _ Y1). rewrite Y2, Y3 in Hm. discriminate. }
           assert (A' : forall v w, anchor l (nth (S i + length pre) (spread v w 0 (if l_barline x then [] else nulls) starts) (-1)%Q)).
           { intros v w. rewrite SP by (right; lia). exact A. }
           destruct (IH _ _ _ _ _ _ _ E' (fun n (F : In n []) => match F with end) (A' _ _) H) as (s' & S1 & S2 & S3).
           exists s'. split; [exact S1|]. split; [rewrite S2; apply spread_length|].
           intros m Hm. rewrite S3 by exact Hm. apply SP. exact Hm.
        -- exact (IH _ _ _ _ _ _ _ E' (fun n (F : In n []) => match F with end) A H).
Qed.

Theorem null_lines_spread : forall pre la mid lb post starts r,
  let lines := pre ++ la :: mid ++ lb :: post in
  let i := length pre in
  let j := S i + length mid in
  length starts = length lines ->
  anchor la (nth i starts (-1)%Q) -> anchor lb (nth j starts (-1)%Q) -> l_barline lb = false ->
  (forall k l, nth_error mid k = Some l -> quiet l (nth (S i + k) starts (-1)%Q)) ->
  analyzeNullLineRhythms lines starts = Some r ->
  let a := nth i starts (-1)%Q in
  let b := nth j starts (-1)%Q in
  let nulls := null_positions (S i) mid in
  nth i r (-1)%Q = a /\ nth j r (-1)%Q = b /\
  forall k m, nth_error nulls k = Some m ->
    (nth m r (-1) == a + inject_Z (Z.of_nat k + 1) * (b - a) / inject_Z (Z.of_nat (length nulls) + 1))%Q.
Proof.
  intros pre la mid lb post starts r lines i j L A B NB Q1 H a b nulls.
  unfold analyzeNullLineRhythms in H.
  pose proof (null_loop_keeps lines lines 0 None [] starts r (fun k _ => eq_refl) (fun n (F : In n []) => match F with end) H) as [LR KR].
  assert (NI : nth_error lines i = Some la).
  { unfold lines. rewrite nth_error_app2 by (unfold i; lia). unfold i. rewrite Nat.sub_diag. reflexivity. }
  assert (NJ : nth_error lines j = Some lb).
  { unfold lines. rewrite nth_error_app2 by (unfold j, i; lia). unfold j, i.
    replace (S (length pre) + length mid - length pre) with (S (length mid)) by lia. cbn [nth_error].
    rewrite nth_error_app2 by lia. rewrite Nat.sub_diag. reflexivity. }
  split; [apply KR; intros l X; rewrite NI in X; injection X as <-; destruct A as (_ & -> & _); reflexivity|].
  split; [apply KR; intros l X; rewrite NJ in X; injection X as <-; destruct B as (_ & -> & _); reflexivity|].
  destruct (null_loop_reach lines pre 0 la (mid ++ lb :: post) None [] starts r) as (s1 & H1 & LS & K1).
  { intros k _. reflexivity. }
  { intros n []. }
  { exact A. }
  { exact H. }
  cbn [Nat.add] in H1, K1. fold i in H1, K1.
  rewrite null_loop_quiet in H1.
  2:{ intros k l Hk. rewrite K1 by (right; lia). apply Q1. exact Hk. }
  change (S i + length mid) with j in H1. cbn [app] in H1. fold nulls in H1.
  cbn [null_loop] in H1. destruct B as (B1 & B2 & B3). rewrite B1, B2, NB in H1. cbn [negb] in H1.
  rewrite K1 in H1 by (right; unfold j; lia). fold b in H1.
  pose proof (proj2 (neg_q_false _) B3) as KB. fold b in KB. rewrite KB in H1.
  rewrite K1 in H1 by (right; lia). fold a in H1.
  intros k m Hk.
  assert (R : S i <= m < S i + length mid).
  { apply null_positions_range. eapply nth_error_In. exact Hk. }
  rewrite (null_loop_later _ _ _ _ _ _ H1 m (fun F => match F with end)) by (unfold j; lia).
  rewrite (spread_nth _ _ nulls 0 s1 k m); [|apply null_positions_nodup|exact Hk|].
  2:{ rewrite LS, L. unfold lines. rewrite app_length. cbn [length]. rewrite app_length. unfold i in *. lia. }
  cbn [Nat.add]. field.
  unfold inject_Z, Qeq. cbn. lia.
Qed.

(** ** The clock *)

Section Clock.
  Variable f : rfile.

  (** Tokens reached from the spine starts. *)
  Inductive reached (roots : list tokref) : tokref -> Prop :=
  | reach_root t : In t roots -> reached roots t
  | reach_next p t : reached roots p -> In t (rf_next f p) -> reached roots t.

  Definition rhythmic_starts : list tokref :=
    filter (rf_rhythm f) (flat_map (fun o : option tokref => match o with Some t => [t] | None => [] end) (tl (rf_starts f))).

  Definition lookup (V : list (tokref * Q)) (t : tokref) : Q :=
    match find (fun e => ref_eqb (fst e) t) V with Some e => snd e | None => 0%Q end.

  Lemma lookup_in V t q : NoDup (map fst V) -> In (t, q) V -> lookup V t = q.
  Proof.
    induction V as [|[u r] V IH]; intros N H; [destruct H|]. inversion N as [|? ? A B]; subst.
    unfold lookup. cbn [find fst]. destruct (ref_eqb u t) eqn:E.
    - apply ref_eqb_eq in E. subst u. destruct H as [H|H]; [injection H as <-; reflexivity|].
      exfalso. apply A. change t with (fst (t, q)). apply in_map. exact H.
    - destruct H as [H|H]; [injection H as -> ->; rewrite (proj2 (ref_eqb_eq t t) eq_refl) in E; discriminate|].
      apply IH; assumption.
  Qed.

  Hypothesis FWD : forward_links f.

  Lemma inv_roots roots roots' V pend st : incl roots roots' -> inv f roots V pend st -> inv f roots' V pend st.
  Proof.
    intros I [N S F ST P R C PF PR PP LN LL].
    assert (W : forall t q, from f roots V t q -> from f roots' V t q).
    { intros t q [[A B]|X]; [left; split; [apply I; exact A|exact B]|right; exact X]. }
    split; auto.
  Qed.

  Lemma first_pass_inv l0 : forall ts roots V st st',
    inv f roots V [] st ->
    (forall t, In (Some t) ts -> fst t < length (rf_lines f)) ->
    (forall t p, In (Some t) ts -> ~ In t (rf_next f p)) ->
    (forall t, In (Some t) ts -> rf_rhythm f t = true -> fst t = l0) ->
    NoDup (roots ++ flat_map (fun o : option tokref => match o with Some t => [t] | None => [] end) ts) ->
    over_starts (first_pass f l0) ts st = Some st' -> rs_valid st' = true ->
    exists V', inv f (roots ++ filter (rf_rhythm f) (flat_map (fun o : option tokref => match o with Some t => [t] | None => [] end) ts)) V' [] st' /\
      incl V V' /\ (forall t, In (Some t) ts -> rf_rhythm f t = true -> In t (map fst V')).
  Proof.
    induction ts as [|[t|] ts IH]; intros roots V st st' I R NP FL ND H VA; cbn [over_starts] in H.
    - injection H as <-. exists V. cbn. rewrite app_nil_r. split; [exact I|]. split; [intros x Hx; exact Hx|intros t []].
    - destruct (first_pass f l0 t st) as [st1|] eqn:P; [|discriminate].
      assert (V1 : rs_valid st1 = true).
      { destruct (rs_valid st1) eqn:X; [reflexivity|]. injection H as <-. congruence. }
      rewrite V1 in H. cbn [flat_map app] in *.
      unfold first_pass in P. destruct (rf_rhythm f t) eqn:RH.
      + pose proof (FL t (or_introl eq_refl) RH) as FLt. cbn [andb] in P. rewrite FLt, Nat.eqb_refl in P.
        unfold assignDurationsToTrack in P. rewrite RH in P.
        assert (Z : rs_seen st t = 0).
        { rewrite (i_seen _ _ _ _ _ I). destruct (in_dec ref_dec t (map fst V)) as [X|X]; [|reflexivity].
          exfalso. apply in_map_iff in X. destruct X as ([u q] & E & Hq). cbn in E. subst u.
          destruct (i_from _ _ _ _ _ I t q Hq) as [[A _]|(p & qp & _ & B & _)].
          - apply NoDup_remove_2 in ND. apply ND. apply in_or_app. left. exact A.
          - exact (NP t p (or_introl eq_refl) B). }
        rewrite Z in P.
        assert (I1 : inv f (roots ++ [t]) V [(t, 0%Q)] st).
        { apply (inv_roots roots (roots ++ [t])) in I; [|intros x Hx; apply in_or_app; left; exact Hx].
          destruct I as [N S F ST PP R' C PF PR PPs LN LL]. split; auto.
          - intros x q n A B. destruct (C x q n A B) as [X|[]]; auto.
          - intros x q [E|[]]. injection E as <- <-. left. split; [apply in_or_app; right; left; reflexivity|reflexivity].
          - intros x q [E|[]]. injection E as <- <-. apply R. left. reflexivity.
          - intros x q [E|[]]. injection E as <- <-. apply Qle_refl. }
        destruct (prepare_inv f FWD _ _ _ _ _ _ _ _ I1 P V1) as (V2 & I2 & INC).
        destruct (IH (roots ++ [t]) V2 st1 st' I2) as (V3 & I3 & INC3 & RT); auto.
        * intros x Hx. apply R. right. exact Hx.
        * intros x p Hx. apply NP. right. exact Hx.
        * intros x Hx. apply FL. right. exact Hx.
        * rewrite <- app_assoc. exact ND.
        * exists V3. cbn [filter]. rewrite RH. rewrite <- app_assoc in I3. cbn [app] in I3.
          split; [exact I3|]. split; [intros x Hx; apply INC3, INC, Hx|].
          intros x [E|Hx] Hr; [injection E as <-|apply RT; assumption].
          assert (S1 : In t (map fst V2)).
          { (* the root was visited: the walk started from a pending unseen token *)
            clear - P I1 Z V1 INC I2 FWD. 
            assert (G : forall fuel st1, prepareDurations f fuel t 0 0%Q st = Some st1 -> rs_seen st1 t <> 0).
            { clear - Z.
              assert (M : forall fuel u s d res st r st', walk f fuel u s d res st = Some (r, st') -> forall x, rs_seen st x <= rs_seen st' x).
              { assert (SS : forall u d st x, rs_seen (setLineDurationFromStart f u d st) x = rs_seen st x).
                { intros u d s x. unfold setLineDurationFromStart.
                  repeat match goal with |- context [if ?b then _ else _] => destruct b end; reflexivity. }
                induction fuel as [|fuel IH]; intros u s d res st0 r st' W x; [discriminate|].
                cbn [walk] in W. destruct (negb (s =? rs_seen st0 u)); [injection W as <- <-; lia|].
                set (st1 := setLineDurationFromStart f u d (bump u st0)) in *.
                assert (L1 : rs_seen st0 x <= rs_seen st1 x).
                { unfold st1. rewrite SS. cbn [bump rs_seen]. destruct (ref_eqb x u); lia. }
                destruct (negb (rs_valid st1)); [injection W as <- <-; exact L1|].
                destruct (rf_next f u).
                - destruct (rf_term f u); injection W as <- <-; [rewrite SS|]; exact L1.
                - apply IH with (x := x) in W. lia. }
              assert (M2 : forall fuel u s d st st', prepareDurations f fuel u s d st = Some st' -> forall x, rs_seen st x <= rs_seen st' x).
              { induction fuel as [|fuel IH]; intros u s d st0 st' H x; [discriminate|]. cbn [prepareDurations] in H.
                destruct (walk f (S (length (rf_lines f))) u s d [] st0) as [[res s1]|] eqn:W; [|discriminate].
                apply M with (x := x) in W. enough (rs_seen s1 x <= rs_seen st' x) by lia.
                remember (rev res) as l eqn:El. clear El W. revert s1 H.
                induction l as [|e l IHl]; intros s1 H; cbn [fold_left] in H; [injection H as <-; lia|].
                destruct (prepareDurations f fuel (fst e) s (snd e) s1) as [s2|] eqn:P.
                - apply IH with (x := x) in P. apply IHl in H. lia.
                - rewrite fold_none in H. discriminate. }
              intros fuel st1 H. destruct fuel as [|fuel]; [discriminate|]. cbn [prepareDurations] in H.
              destruct (walk f (S (length (rf_lines f))) t 0 0%Q [] st) as [[res s1]|] eqn:W; [|discriminate].
              assert (W1 : rs_seen s1 t <> 0).
              { cbn [walk] in W. rewrite Z in W. cbn [Nat.eqb negb] in W.
                assert (SS : forall u d st x, rs_seen (setLineDurationFromStart f u d st) x = rs_seen st x).
                { intros u d s x. unfold setLineDurationFromStart.
                  repeat match goal with |- context [if ?b then _ else _] => destruct b end; reflexivity. }
                set (st2 := setLineDurationFromStart f t 0%Q (bump t st)) in *.
                assert (L1 : rs_seen st2 t = 1).
                { unfold st2. rewrite SS. cbn [bump rs_seen]. rewrite (proj2 (ref_eqb_eq t t) eq_refl). lia. }
                destruct (negb (rs_valid st2)); [injection W as <- <-; lia|].
                destruct (rf_next f t).
                - destruct (rf_term f t); injection W as <- <-; [rewrite SS|]; lia.
                - apply M with (x := t) in W. lia. }
              enough (rs_seen s1 t <= rs_seen st1 t) by lia.
              remember (rev res) as l eqn:El. clear El W W1. revert s1 H.
              induction l as [|e l IHl]; intros s1 H; cbn [fold_left] in H; [injection H as <-; lia|].
              destruct (prepareDurations f fuel (fst e) 0 (snd e) s1) as [s2|] eqn:P.
              - apply M2 with (x := t) in P. apply IHl in H. lia.
              - rewrite fold_none in H. discriminate. }
            specialize (G _ _ P). rewrite (i_seen _ _ _ _ _ I2) in G.
            destruct (in_dec ref_dec t (map fst V2)); [assumption|congruence]. }
          apply in_map_iff in S1. destruct S1 as (e & <- & He). apply in_map. apply INC3. exact He.
      + cbn [andb] in P. injection P as <-.
        destruct (IH roots V st st' I) as (V3 & I3 & INC3 & RT); auto.
        * intros x Hx. apply R. right. exact Hx.
        * intros x p Hx. apply NP. right. exact Hx.
        * intros x Hx. apply FL. right. exact Hx.
        * apply NoDup_remove_1 in ND. exact ND.
        * exists V3. cbn [filter]. rewrite RH. split; [exact I3|]. split; [exact INC3|].
          intros x [E|Hx] Hr; [injection E as <-; congruence|apply RT; assumption].
    - destruct (IH roots V st st' I) as (V3 & I3 & INC3 & RT); auto.
      + intros x Hx. apply R. right. exact Hx.
      + intros x p Hx. apply NP. right. exact Hx.
      + intros x Hx. apply FL. right. exact Hx.
      + exists V3. split; [exact I3|]. split; [exact INC3|]. intros x [E|Hx] Hr; [discriminate|apply RT; assumption].
  Qed.

  Lemma second_pass_noop l0 : forall ts st,
    (forall t, In (Some t) ts -> rf_rhythm f t = true -> fst t = l0) -> rs_valid st = true ->
    over_starts (second_pass f l0) ts st = Some st.
  Proof.
    induction ts as [|[t|] ts IH]; intros st FL V; cbn [over_starts]; [reflexivity| |].
    - unfold second_pass at 1. destruct (rf_rhythm f t) eqn:RH; cbn [andb].
      + rewrite (FL t (or_introl eq_refl) RH), Nat.ltb_irrefl. rewrite V. apply IH; [|exact V].
        intros x Hx. apply FL. right. exact Hx.
      + rewrite V. apply IH; [|exact V]. intros x Hx. apply FL. right. exact Hx.
    - apply IH; [|exact V]. intros x Hx. apply FL. right. exact Hx.
  Qed.

  (** The clock theorem. *)
  Theorem clock : forall starts durs,
    analyzeRhythm f = RhythmOk starts durs ->
    (forall t, In (Some t) (tl (rf_starts f)) -> fst t < length (rf_lines f)) ->
    (forall t p, In (Some t) (tl (rf_starts f)) -> ~ In t (rf_next f p)) ->
    (forall t u, In (Some t) (tl (rf_starts f)) -> In (Some u) (tl (rf_starts f)) -> fst t = fst u) ->
    NoDup (flat_map (fun o : option tokref => match o with Some t => [t] | None => [] end) (tl (rf_starts f))) ->
    (forall t, reached rhythmic_starts t -> (0 <= rf_dur f t)%Q -> ~ terminated_line f (fst t)) ->
    (forall t l, (0 <= rf_dur f t)%Q -> nth_error (rf_lines f) (fst t) = Some l -> reached rhythmic_starts t -> l_allnull l = false) ->
    exists clock : tokref -> Q,
      (forall t, In t rhythmic_starts -> (clock t == 0)%Q) /\
      (forall t, reached rhythmic_starts t -> ~ In t rhythmic_starts ->
         exists p, reached rhythmic_starts p /\ In t (rf_next f p) /\
           (clock t == clock p + Qmax 0 (rf_dur f p))%Q) /\
      (forall t, reached rhythmic_starts t -> (0 <= rf_dur f t)%Q -> (nth (fst t) starts (-1) == clock t)%Q).
  Proof.
    intros starts durs H SR NP SL ND TL AN. unfold analyzeRhythm, walk_result in H.
    assert (I0 : inv f [] [] [] (initial f)).
    { split; cbn; try (intros; contradiction); try reflexivity.
      - constructor.
      - apply repeat_length.
      - intros i. left. destruct (le_lt_dec (length (rf_lines f)) i) as [C|C].
        + rewrite nth_overflow by (rewrite repeat_length; exact C). reflexivity.
        + rewrite nth_repeat. reflexivity. }
    assert (GEN : exists st V, inv f rhythmic_starts V [] st /\ (forall t, In t rhythmic_starts -> In t (map fst V)) /\
       match analyzeNullLineRhythms (rf_lines f) (rs_start st) with
       | None => RhythmFailed
       | Some s => RhythmOk (fillInMissingStartTimes s) (assignLineDurations (fillInMissingStartTimes s)) end = RhythmOk starts durs).
    { unfold rhythmic_starts. destruct (tl (rf_starts f)) as [|[t1|] ts] eqn:TS.
      - exists (initial f), []. split; [exact I0|]. split; [intros t []|exact H].
      - destruct (over_starts (first_pass f (fst t1)) (Some t1 :: ts) (initial f)) as [st|] eqn:P; [|discriminate].
        assert (FL : forall t, In (Some t) (Some t1 :: ts) -> rf_rhythm f t = true -> fst t = fst t1).
        { intros t Ht _. apply SL; [exact Ht|left; reflexivity]. }
        destruct (rs_valid st) eqn:V; [|rewrite V in H; discriminate].
        rewrite (second_pass_noop _ _ _ FL V) in H. rewrite V in H. cbn [negb] in H.
        destruct (first_pass_inv (fst t1) (Some t1 :: ts) [] [] (initial f) st I0 SR NP FL ND P V) as (V' & IV & _ & RT).
        exists st, V'. split; [exact IV|]. split; [|exact H].
        intros t Ht. apply filter_In in Ht. destruct Ht as [Ht Hr]. apply RT; [|exact Hr].
        apply in_flat_map in Ht. destruct Ht as ([u|] & Hu & X); [|destruct X]. destruct X as [<-|[]]. exact Hu.
      - discriminate. }
    destruct GEN as (st & V & IV & RT & E). clear H.
    destruct (analyzeNullLineRhythms (rf_lines f) (rs_start st)) as [s|] eqn:NL; [|discriminate].
    injection E as E1 E2. subst starts.
    (* every reached token was visited *)
    assert (RV : forall t, reached rhythmic_starts t -> In t (map fst V)).
    { intros t Rt. induction Rt as [t Ht|p t Rp IHp Ht]; [apply RT; exact Ht|].
      apply in_map_iff in IHp. destruct IHp as ([u q] & X & Hq). cbn in X. subst u.
      destruct (i_closed _ _ _ _ _ IV p q t Hq Ht) as [A|[]]. exact A. }
    assert (VR : forall t q, In (t, q) V -> lookup V t = q) by (intros t q; apply lookup_in; apply (i_nodup _ _ _ _ _ IV)).
    (* visited tokens are reached: by induction on the line number *)
    assert (VRE : forall n t, fst t < n -> In t (map fst V) -> reached rhythmic_starts t).
    { induction n as [|n IHn]; intros t Hn Ht; [lia|]. apply in_map_iff in Ht. destruct Ht as ([u q] & X & Hq). cbn in X. subst u.
      destruct (i_from _ _ _ _ _ IV t q Hq) as [[A _]|(p & qp & A & B & _)]; [apply reach_root; exact A|].
      apply (reach_next _ p); [|exact B]. apply IHn; [destruct (FWD p t B); lia|].
      change p with (fst (p, qp)). apply in_map. exact A. }
    exists (lookup V). split; [|split].
    - intros t Ht. pose proof (RT t Ht) as X. apply in_map_iff in X. destruct X as ([u q] & Y & Hq). cbn in Y. subst u.
      rewrite (VR t q Hq). destruct (i_from _ _ _ _ _ IV t q Hq) as [[_ ->]|(p & qp & _ & B & _)]; [reflexivity|].
      exfalso. assert (SU : In (Some t) (tl (rf_starts f))).
      { unfold rhythmic_starts in Ht. apply filter_In in Ht. destruct Ht as [Ht _].
        apply in_flat_map in Ht. destruct Ht as ([u|] & Hu & X); [|destruct X]. destruct X as [<-|[]]. exact Hu. }
      exact (NP t p SU B).
    - intros t Rt NR. pose proof (RV t Rt) as X. apply in_map_iff in X. destruct X as ([u q] & Y & Hq). cbn in Y. subst u.
      destruct (i_from _ _ _ _ _ IV t q Hq) as [[A _]|(p & qp & A & B & C)]; [contradiction|].
      exists p. split; [|split; [exact B|]].
      + apply (VRE (S (fst p))); [lia|]. change p with (fst (p, qp)). apply in_map. exact A.
      + rewrite (VR t q Hq), (VR p qp A), C. unfold advance, Qmax, Qlt_bool.
        destruct (Qle_bool (rf_dur f p) 0) eqn:E3; destruct (Qle_bool 0 (rf_dur f p)) eqn:E4; cbn [negb].
        * apply Qle_bool_iff in E3, E4. rewrite (Qle_antisym _ _ E3 E4). ring.
        * ring.
        * ring.
        * exfalso. destruct (Qlt_le_dec (rf_dur f p) 0) as [X|X].
          -- apply Qlt_le_weak, Qle_bool_iff in X. congruence.
          -- apply Qle_bool_iff in X. congruence.
    - intros t Rt D. pose proof (RV t Rt) as X. apply in_map_iff in X. destruct X as ([u q] & Y & Hq). cbn in Y. subst u.
      rewrite (VR t q Hq). pose proof (i_start _ _ _ _ _ IV t q Hq D (TL t Rt D)) as S1.
      pose proof (i_pos _ _ _ _ _ IV t q Hq) as S2. unfold start_of in S1.
      pose proof (null_loop_keeps (rf_lines f) (rf_lines f) 0 None [] _ s (fun k _ => eq_refl) (fun n (F : In n []) => match F with end) NL) as [_ K].
      assert (KE : nth (fst t) s (-1)%Q = nth (fst t) (rs_start st) (-1)%Q).
      { apply K. intros l Hl. rewrite (AN t l D Hl Rt). reflexivity. }
      rewrite fill_keeps; rewrite KE; [exact S1|]. unfold known. rewrite S1. exact S2.
  Qed.
End Clock.
