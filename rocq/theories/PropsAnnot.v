(** C89, C90: beams and tuplets found for export to MEI. *)
From Verif Require Import PyStr AnnotModel.
From Coq Require Import Lia Sorted.

(** ** Vocabulary *)

(** An object with its position in the score and its voice. *)
Definition entry : Type := nat * nat * gnote.
Definition pos (e : entry) : nat := fst (fst e).
Definition voice_of (e : entry) : nat := snd (fst e).
Definition beams_on (g : gnote) : list beam_mark := if g_notrest g then map snd (filter (fun b => Nat.leb (fst b) (g_max g)) (g_beams g)) else [].
Definition beamed (g : gnote) : Prop := beams_on g <> [].
(** All its beams start, or stick out to the right; all end, or stick out to the left. *)
Definition opens (g : gnote) : Prop := beamed g /\ Forall (fun b => b = BStart \/ b = BPartialRight) (beams_on g).
Definition closes (g : gnote) : Prop := beamed g /\ Forall (fun b => b = BStop \/ b = BPartialLeft) (beams_on g).
(** Positions grow. *)
Definition in_order (l : list entry) : Prop := StronglySorted (fun a b => pos a < pos b) l.
Definition crosses (s t : list nat) : Prop := hd 0 s < hd 0 t /\ hd 0 t <= last s 0 /\ last s 0 < last t 0.

(** ** Beams: proofs *)
Lemma start_iff b : startsBeam b = true <-> b = BStart \/ b = BPartialRight.
Proof. destruct b; cbn; split; intros H; try discriminate; auto; destruct H; discriminate. Qed.
Lemma stop_iff b : stopsBeam b = true <-> b = BStop \/ b = BPartialLeft.
Proof. destruct b; cbn; split; intros H; try discriminate; auto; destruct H; discriminate. Qed.
Lemma Forall_iff {A} (P Q : A -> Prop) l : (forall x, P x <-> Q x) -> Forall P l <-> Forall Q l.
Proof. intros H. rewrite !Forall_forall. split; intros F x X; apply H; auto. Qed.
Lemma allStart_iff l : allStart l = true <-> l <> [] /\ Forall (fun b => b = BStart \/ b = BPartialRight) l.
Proof.
  unfold allStart. destruct l as [|b l]; [split; [discriminate|intros [H _]; contradiction]|]. rewrite forallb_forall. split.
  - intros H. split; [discriminate|]. apply Forall_forall. intros x X. apply start_iff. auto.
  - intros [_ H] x X. rewrite Forall_forall in H. apply start_iff. auto.
Qed.
Lemma allStop_iff l : allStop l = true <-> l <> [] /\ Forall (fun b => b = BStop \/ b = BPartialLeft) l.
Proof.
  unfold allStop. destruct l as [|b l]; [split; [discriminate|intros [H _]; contradiction]|]. rewrite forallb_forall. split.
  - intros H. split; [discriminate|]. apply Forall_forall. intros x X. apply stop_iff. auto.
  - intros [_ H] x X. rewrite Forall_forall in H. apply stop_iff. auto.
Qed.
Lemma opens_iff g : opens g <-> allStart (beams_on g) = true.
Proof. rewrite allStart_iff. reflexivity. Qed.
Lemma closes_iff g : closes g <-> allStop (beams_on g) = true.
Proof. rewrite allStop_iff. reflexivity. Qed.

Lemma cur_set v l f w : set_current v l f w = if Nat.eqb w v then l else f w.
Proof. reflexivity. Qed.
(** One step, by cases. *)
Definition push_new (st : bstate) (i v : nat) : bstate := BState (b_spanners st ++ [BSpan i v []]) (set_current v (i :: b_current st v) (b_current st)).
Definition put (id : nat) (i v : nat) (pop : bool) (st : bstate) : bstate :=
  BState (map (bs_add id i) (b_spanners st)) (if pop then set_current v (tl (b_current st v)) (b_current st) else b_current st).
Lemma step_eq st i v g : annotateBeams st i v g =
  match beams_on g with
  | [] => st
  | b :: l => if allStart (b :: l) || match b_current st v with [] => true | _ => false end
         then put i i v (allStop (b :: l)) (push_new st i v)
         else put (hd 0 (b_current st v)) i v (allStop (b :: l)) st
  end.
Proof.
  unfold annotateBeams, beams_on, getNonIgnoredBeams. destruct (g_notrest g); cbn [negb]; [|reflexivity].
  destruct (map snd (filter (fun b => (fst b <=? g_max g)%nat) (g_beams g))) as [|b l]; [reflexivity|].
  destruct (allStart (b :: l) || match b_current st v with [] => true | _ => false end) eqn:E.
  - unfold push_new, put. cbn [b_current b_spanners]. rewrite cur_set, PeanoNat.Nat.eqb_refl. cbn [tl]. destruct (allStop (b :: l)); reflexivity.
  - destruct (b_current st v) as [|id rest] eqn:C; [rewrite Bool.orb_true_r in E; discriminate E|]. unfold put. cbn [hd]. rewrite C. cbn [tl]. destruct (allStop (b :: l)); reflexivity.
Qed.

(** The invariant: [n] is a bound of the positions so far. *)
Record inv (n : nat) (st : bstate) : Prop := Inv {
  i_ids : NoDup (map bs_id (b_spanners st));
  i_head : forall s, In s (b_spanners st) -> exists r, bs_notes s = bs_id s :: r;
  i_sorted : forall s, In s (b_spanners st) -> StronglySorted lt (bs_notes s);
  i_bound : forall s x, In s (b_spanners st) -> In x (bs_notes s) -> x < n;
  i_cur : forall v id, In id (b_current st v) -> exists s, In s (b_spanners st) /\ bs_id s = id /\ bs_voice s = v;
  i_stack : forall v, StronglySorted gt (b_current st v);
  i_disj : forall s t x, In s (b_spanners st) -> In t (b_spanners st) -> In x (bs_notes s) -> In x (bs_notes t) -> s = t;
  i_nest : forall s t a, In s (b_spanners st) -> In t (b_spanners st) -> bs_voice s = bs_voice t -> In a (bs_notes s) -> bs_id s < bs_id t -> bs_id t < a ->
           ~ In (bs_id t) (b_current st (bs_voice t)) /\ forall b, In b (bs_notes t) -> b < a }.

Lemma same_id st s t : NoDup (map bs_id (b_spanners st)) -> In s (b_spanners st) -> In t (b_spanners st) -> bs_id s = bs_id t -> s = t.
Proof.
  induction (b_spanners st) as [|x l IH]; intros ND S T E; [destruct S|]. cbn [map] in ND. inversion ND as [|? ? N ND']; subst. destruct S as [->|S], T as [->|T]; auto.
  - exfalso. apply N. rewrite E. apply in_map. exact T.
  - exfalso. apply N. rewrite <- E. apply in_map. exact S.
Qed.
Lemma bs_add_id id i s : bs_id (bs_add id i s) = bs_id s.
Proof. unfold bs_add. destruct (bs_id s =? id); reflexivity. Qed.
Lemma bs_add_voice id i s : bs_voice (bs_add id i s) = bs_voice s.
Proof. unfold bs_add. destruct (bs_id s =? id); reflexivity. Qed.
Lemma bs_add_notes id i s x : In x (bs_notes (bs_add id i s)) <-> In x (bs_notes s) \/ (bs_id s = id /\ x = i).
Proof.
  unfold bs_add. destruct (bs_id s =? id) eqn:E; cbn [bs_notes].
  - apply PeanoNat.Nat.eqb_eq in E. rewrite in_app_iff. cbn [In]. intuition congruence.
  - apply PeanoNat.Nat.eqb_neq in E. intuition congruence.
Qed.
Lemma sorted_snoc l x : StronglySorted lt l -> (forall y, In y l -> y < x) -> StronglySorted lt (l ++ [x]).
Proof.
  induction 1 as [|y l S IH F]; intros H; [repeat constructor|]. cbn [app]. constructor; [apply IH; intros; apply H; right; assumption|]. apply Forall_app. split; [exact F|]. constructor; [apply H; left; reflexivity|constructor].
Qed.

(** Adding a note to the last of the current spanners. *)
Lemma inv_put n st i v pop : inv n st -> n <= i -> b_current st v <> [] -> inv (S i) (put (hd 0 (b_current st v)) i v pop st).
Proof.
  intros [A1 A2 A3 A4 A5 A6 A7 A8] Hi C. destruct (b_current st v) as [|id rest] eqn:E; [contradiction|]. cbn [hd].
  assert (CU : forall w k, In k (b_current (put id i v pop st) w) -> In k (b_current st w)).
  { intros w k. unfold put. cbn [b_current]. destruct pop; [|auto]. rewrite cur_set. destruct (w =? v) eqn:W; [|auto]. apply PeanoNat.Nat.eqb_eq in W. subst w. rewrite E. cbn [tl]. intros H. right. exact H. }
  destruct (A5 v id) as (s0 & S0 & I0 & V0); [rewrite E; left; reflexivity|].
  assert (BIG : forall t, In t (b_spanners st) -> bs_voice t = v -> id < bs_id t -> ~ In (bs_id t) (b_current st v)).
  { intros t T V L H. pose proof (A6 v) as G. rewrite E in G, H. inversion G as [|? ? G1 G2]; subst. rewrite Forall_forall in G2. destruct H as [H|H]; [lia|]. apply G2 in H. unfold gt in H. lia. }
  unfold put. split; cbn [b_spanners].
  - rewrite map_map. rewrite (map_ext _ bs_id (bs_add_id id i)). exact A1.
  - intros s S. apply in_map_iff in S. destruct S as (s' & <- & S). destruct (A2 s' S) as (r & R). unfold bs_add. destruct (bs_id s' =? id); [|exists r; exact R]. cbn [bs_notes bs_id]. rewrite R. exists (r ++ [i]). reflexivity.
  - intros s S. apply in_map_iff in S. destruct S as (s' & <- & S). unfold bs_add. destruct (bs_id s' =? id); [|apply A3; exact S]. cbn [bs_notes]. apply sorted_snoc; [apply A3; exact S|]. intros y Y. apply (A4 s' y S) in Y. lia.
  - intros s x S X. apply in_map_iff in S. destruct S as (s' & <- & S). apply bs_add_notes in X. destruct X as [X|[_ ->]]; [|lia]. apply (A4 s' x S) in X. lia.
  - intros w k K. apply CU in K. destruct (A5 w k K) as (s & S & I1 & V1). exists (bs_add id i s). rewrite bs_add_id, bs_add_voice. split; [apply in_map; exact S|auto].
  - intros w. cbn [b_current]. destruct pop; [|apply A6]. rewrite cur_set. destruct (w =? v) eqn:W; [|apply A6]. rewrite E. cbn [tl]. pose proof (A6 v) as G. rewrite E in G. inversion G; subst. assumption.
  - intros s t x S T X Y. apply in_map_iff in S, T. destruct S as (s' & <- & S), T as (t' & <- & T). apply bs_add_notes in X, Y. f_equal.
    destruct X as [X|[X1 X2]], Y as [Y|[Y1 Y2]].
    + eapply A7; eassumption.
    + subst x. apply (A4 _ _ S) in X. lia.
    + subst x. apply (A4 _ _ T) in Y. lia.
    + apply (same_id st); auto. congruence.
  - intros s t a S T V A L1 L2. apply in_map_iff in S, T. destruct S as (s' & <- & S), T as (t' & <- & T). rewrite !bs_add_id, !bs_add_voice in *. apply bs_add_notes in A.
    assert (CU' : In (bs_id t') (b_current (put id i v pop st) (bs_voice t')) -> In (bs_id t') (b_current st (bs_voice t'))) by apply CU. unfold put in CU'. cbn [b_current] in CU' |- *.
    destruct A as [A|[A1' ->]].
    + destruct (A8 s' t' a S T V A L1 L2) as [N1 N2]. split; [tauto|]. intros b B. apply bs_add_notes in B. destruct B as [B|[B ->]]; [auto|]. exfalso. apply N1.
      assert (t' = s0) as -> by (apply (same_id st); auto; congruence). rewrite V0, E, B. left. reflexivity.
    + assert (s' = s0) as -> by (apply (same_id st); auto; congruence). split.
      * intros H. apply CU' in H. rewrite <- V, V0 in H. revert H. apply BIG; auto; congruence.
      * intros b B. apply bs_add_notes in B. destruct B as [B|[B ->]]; [apply (A4 _ _ T) in B; lia|]. exfalso. congruence || lia.
Qed.

(** A new spanner, with its first note. *)
Lemma map_bs_add_fresh id i l : (forall s, In s l -> bs_id s <> id) -> map (bs_add id i) l = l.
Proof. induction l as [|s l IH]; intros H; [reflexivity|]. cbn [map]. rewrite IH by (intros; apply H; right; assumption). f_equal. unfold bs_add. rewrite (proj2 (PeanoNat.Nat.eqb_neq _ _)); [reflexivity|]. apply H. left. reflexivity. Qed.
Lemma fresh n st i : inv n st -> n <= i -> forall s, In s (b_spanners st) -> bs_id s <> i.
Proof. intros I H s S E. destruct (i_head _ _ I s S) as (r & R). assert (bs_id s < n) by (apply (i_bound _ _ I s _ S); rewrite R; left; reflexivity). lia. Qed.
Lemma put_new n st i v pop : inv n st -> n <= i -> put i i v pop (push_new st i v) =
  BState (b_spanners st ++ [BSpan i v [i]]) (if pop then set_current v (b_current st v) (set_current v (i :: b_current st v) (b_current st)) else set_current v (i :: b_current st v) (b_current st)).
Proof.
  intros I H. unfold put, push_new. cbn [b_spanners b_current]. rewrite map_app, (map_bs_add_fresh _ _ _ (fresh _ _ _ I H)). cbn [map]. unfold bs_add. cbn [bs_id]. rewrite PeanoNat.Nat.eqb_refl. cbn [bs_voice bs_notes app]. f_equal.
  unfold set_current at 2. rewrite PeanoNat.Nat.eqb_refl. reflexivity.
Qed.
Lemma inv_new n st i v pop : inv n st -> n <= i -> inv (S i) (put i i v pop (push_new st i v)).
Proof.
  intros I H. rewrite (put_new n) by assumption. pose proof (fresh _ _ _ I H) as FR. destruct I as [A1 A2 A3 A4 A5 A6 A7 A8].
  assert (IDLT : forall s, In s (b_spanners st) -> bs_id s < i) by (intros s S; destruct (A2 s S) as (r & R); assert (bs_id s < n) by (apply (A4 s _ S); rewrite R; left; reflexivity); lia).
  assert (CUR : forall w k, In k (b_current st w) -> k < i) by (intros w k K; destruct (A5 w k K) as (s & S & <- & _); auto).
  assert (CU : forall w k, In k ((if pop then set_current v (b_current st v) (set_current v (i :: b_current st v) (b_current st)) else set_current v (i :: b_current st v) (b_current st)) w) -> (In k (b_current st w) \/ (k = i /\ w = v))).
  { intros w k. destruct pop; rewrite ?cur_set; destruct (w =? v) eqn:W; auto; apply PeanoNat.Nat.eqb_eq in W; subst w; [auto|]. intros [<-|K]; auto. }
  split; cbn [b_spanners b_current].
  - rewrite map_app. cbn [map bs_id]. apply (NoDup_Add (Add_app i (map bs_id (b_spanners st)) [])). rewrite app_nil_r. split; [exact A1|]. intros X. apply in_map_iff in X. destruct X as (s & E & S). apply (FR s S E).
  - intros s S. apply in_app_iff in S. destruct S as [S|[<-|[]]]; [apply A2; exact S|]. exists []. reflexivity.
  - intros s S. apply in_app_iff in S. destruct S as [S|[<-|[]]]; [apply A3; exact S|]. repeat constructor.
  - intros s x S X. apply in_app_iff in S. destruct S as [S|[<-|[]]]; [apply (A4 s x S) in X; lia|]. destruct X as [<-|[]]. lia.
  - intros w k K. apply CU in K. destruct K as [K|[-> ->]]; [destruct (A5 w k K) as (s & S & E); exists s; split; [apply in_app_iff; left; exact S|exact E]|]. exists (BSpan i v [i]). split; [apply in_app_iff; right; left; reflexivity|auto].
  - intros w. assert (G : StronglySorted gt (i :: b_current st v)) by (constructor; [apply A6|]; apply Forall_forall; intros k K; apply CUR in K; unfold gt; exact K).
    destruct pop; rewrite ?cur_set; destruct (w =? v); auto.
  - intros s t x S T X Y. apply in_app_iff in S, T. destruct S as [S|[<-|[]]], T as [T|[<-|[]]]; [eapply A7; eassumption| | |reflexivity].
    + destruct Y as [<-|[]]. apply (A4 _ _ S) in X. lia.
    + destruct X as [<-|[]]. apply (A4 _ _ T) in Y. lia.
  - intros s t a S T V A L1 L2. apply in_app_iff in S, T. destruct T as [T|[<-|[]]].
    + destruct S as [S|[<-|[]]]; [|cbn [bs_id] in L1; apply IDLT in T; lia]. destruct (A8 s t a S T V A L1 L2) as [N1 N2]. split; [|exact N2]. intros X. apply CU in X. destruct X as [X|[X _]]; [auto|]. apply (FR t T X).
    + cbn [bs_id] in L1, L2. exfalso. destruct S as [S|[<-|[]]]; [apply (A4 _ _ S) in A; lia|]. destruct A as [<-|[]]. lia.
Qed.

Lemma inv_mono n n' st : n <= n' -> inv n st -> inv n' st.
Proof. intros H [A1 A2 A3 A4 A5 A6 A7 A8]. split; auto. intros s x S X. apply (A4 s x S) in X. lia. Qed.
Lemma inv_step n st i v g : inv n st -> n <= i -> inv (S i) (annotateBeams st i v g).
Proof.
  intros I H. rewrite step_eq. destruct (beams_on g) as [|b l]; [apply (inv_mono n); [lia|exact I]|].
  destruct (allStart (b :: l) || match b_current st v with [] => true | _ => false end) eqn:E; [apply (inv_new n); assumption|].
  apply (inv_put n); auto. intros C. rewrite C, Bool.orb_true_r in E. discriminate.
Qed.

(** Which notes are in spanners. *)
Definition member (st : bstate) (x v : nat) : Prop := exists s, In s (b_spanners st) /\ bs_voice s = v /\ In x (bs_notes s).
Lemma member_step n st i v g x w : inv n st -> n <= i -> (member (annotateBeams st i v g) x w <-> member st x w \/ (x = i /\ w = v /\ beams_on g <> [])).
Proof.
  intros I H. rewrite step_eq. unfold member. destruct (beams_on g) as [|b l]; [intuition congruence|].
  destruct (allStart (b :: l) || match b_current st v with [] => true | _ => false end) eqn:E.
  - rewrite (put_new n) by assumption. cbn [b_spanners]. split.
    + intros (s & S & V & X). apply in_app_iff in S. destruct S as [S|[<-|[]]]; [left; exists s; auto|]. destruct X as [<-|[]]. right. cbn in V. repeat split; [congruence|discriminate].
    + intros [(s & S & V & X)|(-> & -> & _)]; [exists s; split; [apply in_app_iff; auto|auto]|]. exists (BSpan i v [i]). split; [apply in_app_iff; right; left; reflexivity|]. split; [reflexivity|left; reflexivity].
  - destruct (b_current st v) as [|id rest] eqn:C; [rewrite Bool.orb_true_r in E; discriminate|]. cbn [hd]. destruct (i_cur _ _ I v id) as (s0 & S0 & I0 & V0); [rewrite C; left; reflexivity|]. unfold put. cbn [b_spanners]. split.
    + intros (s & S & V & X). apply in_map_iff in S. destruct S as (s' & <- & S). rewrite bs_add_voice in V. apply bs_add_notes in X. destruct X as [X|[X ->]]; [left; exists s'; auto|]. right. split; [reflexivity|]. split; [|discriminate].
      assert (s' = s0) as -> by (apply (same_id st); [apply (i_ids _ _ I)|assumption..|congruence]). congruence.
    + intros [(s & S & V & X)|(-> & -> & _)]; [exists (bs_add id i s); split; [apply in_map; exact S|]; rewrite bs_add_voice; split; [exact V|apply bs_add_notes; left; exact X]|].
      exists (bs_add id i s0). split; [apply in_map; exact S0|]. rewrite bs_add_voice. split; [exact V0|]. apply bs_add_notes. right. auto.
Qed.

Lemma run_ok : forall l n st, inv n st -> in_order l -> (forall e, In e l -> n <= pos e) ->
  exists n', inv n' (beams_from st l) /\ forall x w, member (beams_from st l) x w <-> member st x w \/ exists g, In (x, w, g) l /\ beamed g.
Proof.
  induction l as [|[[i v] g] l IH]; intros n st I O B.
  - exists n. split; [exact I|]. intros x w. split; [auto|]. intros [H|(g & [] & _)]. exact H.
  - inversion O as [|? ? O1 O2]; subst. rewrite Forall_forall in O2. assert (Hi : n <= i) by (apply (B (i, v, g)); left; reflexivity). cbn [beams_from].
    destruct (IH (S i) (annotateBeams st i v g)) as (n' & I' & M); [apply (inv_step n); assumption|exact O1|intros e X; apply O2 in X; unfold pos in *; cbn [fst] in *; lia|].
    exists n'. split; [exact I'|]. intros x w. rewrite M, (member_step n st i v g x w I Hi). split.
    + intros [[H|(-> & -> & H)]|(g' & H & H2)]; [left; exact H|right; exists g; split; [left; reflexivity|exact H]|right; exists g'; split; [right; exact H|exact H2]].
    + intros [H|(g' & [H|H] & H2)]; [left; left; exact H| |right; exists g'; auto]. injection H as <- <- <-. left. right. auto.
Qed.
Lemma inv_0 : inv 0 (BState [] (fun _ => [])).
Proof. split; cbn; try tauto; try (intros; contradiction); constructor. Qed.

(** ** Beams that are well marked *)

(** The rest of a beamed group after its first note: until a note all of whose beams end; its own notes; the
    groups inside. *)
Inductive body : list (nat * gnote) -> list nat -> list (list nat) -> Prop :=
| B_last i g : closes g -> body [(i, g)] [i] []
| B_plain i g b own inner : ~ beamed g -> body b own inner -> body ((i, g) :: b) own inner
| B_mid i g b own inner : beamed g -> ~ opens g -> ~ closes g -> body b own inner -> body ((i, g) :: b) (i :: own) inner
| B_inner i g b1 own1 in1 b2 own2 in2 : opens g -> body b1 own1 in1 -> body b2 own2 in2 -> body ((i, g) :: b1 ++ b2) own2 ((i :: own1) :: in1 ++ in2).
(** A voice, with its beamed groups in order of their beginning. *)
Inductive marked : list (nat * gnote) -> list (list nat) -> Prop :=
| M_nil : marked [] []
| M_plain i g r gs : ~ beamed g -> marked r gs -> marked ((i, g) :: r) gs
| M_group i g b own inner r gs : opens g -> body b own inner -> marked r gs -> marked ((i, g) :: b ++ r) ((i :: own) :: inner ++ gs).

(** *** Proofs *)
Fixpoint asc (n : nat) (l : list (nat * gnote)) : Prop := match l with [] => True | (i, _) :: r => n <= i /\ asc (S i) r end.
Fixpoint fin (n : nat) (l : list (nat * gnote)) : nat := match l with [] => n | (i, _) :: r => fin (S i) r end.
Lemma asc_app : forall l1 l2 n, asc n (l1 ++ l2) <-> asc n l1 /\ asc (fin n l1) l2.
Proof. induction l1 as [|[i g] l1 IH]; intros l2 n; cbn [app asc fin]; [tauto|]. rewrite IH. tauto. Qed.
Definition tag (v : nat) (l : list (nat * gnote)) : list entry := map (fun e => (fst e, v, snd e)) l.
Lemma beams_from_app : forall l1 l2 st, beams_from st (l1 ++ l2) = beams_from (beams_from st l1) l2.
Proof. induction l1 as [|[[i v] g] l1 IH]; intros l2 st; [reflexivity|]. cbn [app beams_from]. apply IH. Qed.
Lemma inv_run v : forall l n st, inv n st -> asc n l -> inv (fin n l) (beams_from st (tag v l)).
Proof. induction l as [|[i g] l IH]; intros n st I A; [exact I|]. cbn [asc] in A. destruct A as [A1 A2]. cbn [tag map fst snd beams_from fin]. apply IH; [|exact A2]. apply (inv_step n); assumption. Qed.

Definition addmany (k : nat) (own : list nat) (s : bspan) : bspan := if Nat.eqb (bs_id s) k then BSpan (bs_id s) (bs_voice s) (bs_notes s ++ own) else s.
Definition mk (v : nat) (g : list nat) : bspan := BSpan (hd 0 g) v g.
Lemma addmany_cons k i own s : addmany k own (bs_add k i s) = addmany k (i :: own) s.
Proof. unfold addmany, bs_add. destruct (bs_id s =? k) eqn:E; cbn [bs_id bs_voice bs_notes]; rewrite E; [|reflexivity]. rewrite <- app_assoc. reflexivity. Qed.
Lemma map_addmany_fresh k own l : ~ In k (map bs_id l) -> map (addmany k own) l = l.
Proof.
  induction l as [|s l IH]; intros H; [reflexivity|]. cbn [map]. cbn [map In] in H. rewrite IH by tauto. f_equal. unfold addmany. rewrite (proj2 (PeanoNat.Nat.eqb_neq _ _)); [reflexivity|]. tauto.
Qed.
Lemma map_addmany_ids k own l : map bs_id (map (addmany k own) l) = map bs_id l.
Proof. rewrite map_map. apply map_ext. intros s. unfold addmany. destruct (bs_id s =? k); reflexivity. Qed.
Lemma NoDup_app_not {A} (l1 l2 : list A) x : NoDup (l1 ++ l2) -> In x l1 -> ~ In x l2.
Proof. induction l1 as [|y l1 IH]; intros N I X; [destruct I|]. inversion N; subst. destruct I as [->|I]; [apply H1; apply in_app_iff; auto|apply IH; auto]. Qed.

Lemma not_beamed g : ~ beamed g -> beams_on g = [].
Proof. unfold beamed. destruct (beams_on g); [reflexivity|]. intros H. exfalso. apply H. discriminate. Qed.
Lemma not_allStart g : ~ opens g -> allStart (beams_on g) = false.
Proof. rewrite opens_iff. apply Bool.not_true_is_false. Qed.
Lemma not_allStop g : ~ closes g -> allStop (beams_on g) = false.
Proof. rewrite closes_iff. apply Bool.not_true_is_false. Qed.
Lemma opens_closes g : opens g -> ~ closes g.
Proof. intros [B O] [_ C]. unfold beamed in B. destruct (beams_on g) as [|b l]; [contradiction|]. inversion O; inversion C; subst. intuition congruence. Qed.

Lemma step_plain st i v g : ~ beamed g -> annotateBeams st i v g = st.
Proof. intros H. rewrite step_eq, (not_beamed g H). reflexivity. Qed.
Lemma step_join st i v g k rest : b_current st v = k :: rest -> beamed g -> ~ opens g -> annotateBeams st i v g = put k i v (allStop (beams_on g)) st.
Proof.
  intros C B O. rewrite step_eq. pose proof (not_allStart g O) as E. unfold beamed in B. destruct (beams_on g) as [|b l]; [contradiction|]. rewrite E, C. reflexivity.
Qed.
Lemma step_open n st i v g : inv n st -> n <= i -> opens g -> annotateBeams st i v g = BState (b_spanners st ++ [BSpan i v [i]]) (set_current v (i :: b_current st v) (b_current st)).
Proof.
  intros I H O. rewrite step_eq. pose proof (proj1 (opens_iff g) O) as E. pose proof (not_allStop g (opens_closes g O)) as E2. destruct O as [B _]. unfold beamed in B. destruct (beams_on g) as [|b l]; [contradiction|]. rewrite E, E2. cbn [orb]. rewrite (put_new n) by assumption. reflexivity.
Qed.

Lemma body_run v b own inner : body b own inner -> forall n st k rest, inv n st -> asc n b -> b_current st v = k :: rest ->
  b_spanners (beams_from st (tag v b)) = map (addmany k own) (b_spanners st) ++ map (mk v) inner /\ b_current (beams_from st (tag v b)) v = rest.
Proof.
  induction 1 as [i g C|i g b own inner P _ IH|i g b own inner Hb Ho Hc _ IH|i g b1 own1 in1 b2 own2 in2 O _ IH1 _ IH2]; intros n st k rest I A CU; cbn [asc] in A; destruct A as [A1 A2]; cbn [tag map fst snd beams_from].
  - rewrite (step_join st i v g k rest CU); [|exact (proj1 C)|intros O; exact (opens_closes g O C)]. rewrite (proj1 (closes_iff g) C). unfold put. cbn [b_spanners b_current]. rewrite cur_set, PeanoNat.Nat.eqb_refl, CU. cbn [tl]. rewrite app_nil_r. auto.
  - rewrite step_plain by exact P. apply (IH (S i)); [apply (inv_mono n); [lia|exact I]|exact A2|exact CU].
  - assert (I' := inv_step n st i v g I A1). rewrite (step_join st i v g k rest CU Hb Ho), (not_allStop g Hc) in *.
    destruct (IH (S i) _ k rest I' A2) as [E1 E2]; [unfold put; cbn [b_current]; exact CU|]. fold (tag v b). rewrite E1, E2. split; [|reflexivity]. unfold put. cbn [b_spanners]. rewrite map_map. f_equal. apply map_ext. intros s. apply addmany_cons.
  - assert (I' := inv_step n st i v g I A1). rewrite (step_open n st i v g I A1 O) in *. apply asc_app in A2. destruct A2 as [A2 A3].
    unfold tag. rewrite map_app. fold (tag v b1). fold (tag v b2). rewrite beams_from_app.
    match type of I' with inv _ ?s => set (st1 := s) in * end.
    destruct (IH1 (S i) st1 i (k :: rest) I' A2) as [E1 E2]; [unfold st1; cbn [b_current]; rewrite cur_set, PeanoNat.Nat.eqb_refl, CU; reflexivity|].
    assert (I2 := inv_run v b1 _ _ I' A2).
    destruct (IH2 _ _ k rest I2 A3 E2) as [E3 E4]. split; [|exact E4]. rewrite E3, E1. unfold st1. cbn [b_spanners]. rewrite !map_app.
    assert (F : ~ In i (map bs_id (b_spanners st))) by (intros X; apply in_map_iff in X; destruct X as (s & X1 & X2); exact (fresh n st i I A1 s X2 X1)).
    rewrite (map_addmany_fresh i own1 _ F).
    assert (K : In k (map bs_id (b_spanners st))).
    { destruct (i_cur _ _ I v k) as (s & S1 & S2 & _); [rewrite CU; left; reflexivity|]. rewrite <- S2. apply in_map. exact S1. }
    assert (ND := i_ids _ _ I2). rewrite E1 in ND. unfold st1 in ND. cbn [b_spanners] in ND. rewrite (map_app (addmany i own1)), (map_addmany_fresh i own1 _ F) in ND. cbn [map] in ND |- *.
    assert (EQ : addmany i own1 (BSpan i v [i]) = mk v (i :: own1)) by (unfold addmany; cbn [bs_id]; rewrite PeanoNat.Nat.eqb_refl; reflexivity). rewrite EQ in *.
    rewrite <- app_assoc, map_app in ND. pose proof (NoDup_app_not _ _ k ND K) as NK. rewrite map_app in NK. rewrite in_app_iff in NK.
    assert (addmany k own2 (mk v (i :: own1)) = mk v (i :: own1)) as -> by (pose proof (map_addmany_fresh k own2 [mk v (i :: own1)]) as M; cbn [map] in M, NK; assert (M1 : [addmany k own2 (mk v (i :: own1))] = [mk v (i :: own1)]) by (apply M; tauto); congruence).
    rewrite (map_addmany_fresh k own2 (map (mk v) in1)) by tauto. rewrite <- !app_assoc. reflexivity.
Qed.

Lemma marked_run v l gs : marked l gs -> forall n st, inv n st -> asc n l -> b_current st v = [] ->
  b_spanners (beams_from st (tag v l)) = b_spanners st ++ map (mk v) gs.
Proof.
  induction 1 as [|i g r gs P _ IH|i g b own inner r gs O Bo _ IH]; intros n st I A CU; [cbn; rewrite app_nil_r; reflexivity|cbn [asc] in A; destruct A as [A1 A2]; cbn [tag map fst snd beams_from]..].
  - rewrite step_plain by exact P. apply (IH (S i)); [apply (inv_mono n); [lia|exact I]|exact A2|exact CU].
  - assert (I' := inv_step n st i v g I A1). rewrite (step_open n st i v g I A1 O) in *. apply asc_app in A2. destruct A2 as [A2 A3].
    unfold tag. rewrite map_app. fold (tag v b). fold (tag v r). rewrite beams_from_app.
    match type of I' with inv _ ?s => set (st1 := s) in * end.
    destruct (body_run v b own inner Bo (S i) st1 i [] I' A2) as [E1 E2]; [unfold st1; cbn [b_current]; rewrite cur_set, PeanoNat.Nat.eqb_refl, CU; reflexivity|].
    rewrite (IH _ _ (inv_run v b _ _ I' A2) A3 E2), E1. unfold st1. cbn [b_spanners]. rewrite map_app, map_addmany_fresh by (intros X; apply in_map_iff in X; destruct X as (s & X1 & X2); exact (fresh n st i I A1 s X2 X1)).
    cbn [map]. unfold addmany at 1. cbn [bs_id]. rewrite PeanoNat.Nat.eqb_refl. rewrite map_app, <- !app_assoc. reflexivity.
Qed.

(** *** Voices do not influence each other. *)
Definition of_voice (v : nat) (s : bspan) : bool := Nat.eqb (bs_voice s) v.
Lemma filter_put v k i : forall l, filter (of_voice v) (map (bs_add k i) l) = map (bs_add k i) (filter (of_voice v) l).
Proof. induction l as [|s l IH]; [reflexivity|]. cbn [map filter]. assert (of_voice v (bs_add k i s) = of_voice v s) as -> by (unfold of_voice; rewrite bs_add_voice; reflexivity). destruct (of_voice v s); cbn [map]; rewrite IH; reflexivity. Qed.
Lemma proj_step n st st' i v g : inv n st -> inv n st' -> n <= i -> filter (of_voice v) (b_spanners st) = filter (of_voice v) (b_spanners st') -> b_current st v = b_current st' v ->
  filter (of_voice v) (b_spanners (annotateBeams st i v g)) = filter (of_voice v) (b_spanners (annotateBeams st' i v g)) /\ b_current (annotateBeams st i v g) v = b_current (annotateBeams st' i v g) v.
Proof.
  intros I I' H F C. rewrite !step_eq. destruct (beams_on g) as [|b l]; [auto|]. rewrite <- C. destruct (allStart (b :: l) || match b_current st v with [] => true | _ => false end) eqn:E.
  - rewrite !(put_new n) by assumption. cbn [b_spanners b_current]. rewrite !filter_app, F. split; [reflexivity|]. destruct (allStop (b :: l)); rewrite !cur_set, !PeanoNat.Nat.eqb_refl; congruence.
  - unfold put. cbn [b_spanners b_current]. rewrite !filter_put, F. split; [reflexivity|]. destruct (allStop (b :: l)); rewrite ?cur_set, ?PeanoNat.Nat.eqb_refl; congruence.
Qed.
Lemma proj_other n st i v u g : inv n st -> n <= i -> u <> v ->
  filter (of_voice v) (b_spanners (annotateBeams st i u g)) = filter (of_voice v) (b_spanners st) /\ b_current (annotateBeams st i u g) v = b_current st v.
Proof.
  intros I H U. assert (UV : (v =? u) = false) by (apply PeanoNat.Nat.eqb_neq; congruence). assert (VU : (u =? v) = false) by (apply PeanoNat.Nat.eqb_neq; congruence).
  rewrite !step_eq. destruct (beams_on g) as [|b l]; [auto|]. destruct (allStart (b :: l) || match b_current st u with [] => true | _ => false end) eqn:E.
  - rewrite !(put_new n) by assumption. cbn [b_spanners b_current]. rewrite !filter_app. cbn [filter]. unfold of_voice at 2. cbn [bs_voice]. rewrite VU, app_nil_r. split; [reflexivity|]. destruct (allStop (b :: l)); rewrite !cur_set, !UV; reflexivity.
  - destruct (b_current st u) as [|k rest] eqn:C; [rewrite Bool.orb_true_r in E; discriminate|]. cbn [hd]. unfold put. cbn [b_spanners b_current]. rewrite filter_put. split; [|destruct (allStop (b :: l)); rewrite ?cur_set, ?UV; reflexivity].
    apply map_bs_add_fresh. intros s S K. apply filter_In in S. destruct S as [S V]. unfold of_voice in V. apply PeanoNat.Nat.eqb_eq in V.
    destruct (i_cur _ _ I u k) as (s0 & S0 & I0 & V0); [rewrite C; left; reflexivity|]. assert (s = s0) by (apply (same_id st); [apply (i_ids _ _ I)|assumption..|congruence]). congruence.
Qed.
Lemma proj v : forall l n st st', inv n st -> inv n st' -> in_order l -> (forall e, In e l -> n <= pos e) -> filter (of_voice v) (b_spanners st) = filter (of_voice v) (b_spanners st') -> b_current st v = b_current st' v ->
  filter (of_voice v) (b_spanners (beams_from st l)) = filter (of_voice v) (b_spanners (beams_from st' (filter (fun e => Nat.eqb (voice_of e) v) l))).
Proof.
  induction l as [|[[i u] g] l IH]; intros n st st' I I' O B F C; [exact F|]. inversion O as [|? ? O1 O2]; subst. rewrite Forall_forall in O2.
  assert (Hi : n <= i) by (apply (B (i, u, g)); left; reflexivity).
  assert (B' : forall e, In e l -> S i <= pos e) by (intros e X; apply O2 in X; unfold pos in *; cbn [fst] in *; lia).
  cbn [filter]. change (voice_of (i, u, g)) with u. destruct (u =? v) eqn:U; cbn [beams_from].
  - apply PeanoNat.Nat.eqb_eq in U. subst u. destruct (proj_step n st st' i v g I I' Hi F C) as [F' C']. apply (IH (S i)); auto; apply (inv_step n); assumption.
  - apply PeanoNat.Nat.eqb_neq in U. destruct (proj_other n st i v u g I Hi U) as [F' C']. apply (IH (S i)); auto; [apply (inv_step n); assumption|apply (inv_mono n); [lia|assumption]|congruence|congruence].
Qed.
Lemma asc_order : forall l n, in_order l -> (forall e, In e l -> n <= pos e) -> asc n (map (fun e => (pos e, snd e)) l).
Proof.
  induction l as [|[[i u] g] l IH]; intros n O B; [exact Logic.I|]. inversion O as [|? ? O1 O2]; subst. rewrite Forall_forall in O2. cbn [map asc pos fst snd]. split; [apply (B (i, u, g)); left; reflexivity|].
  apply IH; [exact O1|]. intros e X. apply O2 in X. unfold pos in *. cbn [fst] in *. lia.
Qed.
Lemma order_filter f l : in_order l -> in_order (filter f l).
Proof. unfold in_order. induction 1 as [|e l S IH F]; cbn [filter]; [constructor|]. destruct (f e); [|exact IH]. constructor; [exact IH|]. rewrite Forall_forall in *. intros x X. apply filter_In in X. apply F. tauto. Qed.
Lemma tag_voice v l : tag v (map (fun e => (pos e, snd e)) (filter (fun e : entry => Nat.eqb (voice_of e) v) l)) = filter (fun e => Nat.eqb (voice_of e) v) l.
Proof.
  unfold tag. rewrite map_map. induction l as [|[[i u] g] l IH]; [reflexivity|]. cbn [filter]. change (voice_of (i, u, g)) with u. destruct (u =? v) eqn:U; [|exact IH]. cbn [map]. rewrite IH. apply PeanoNat.Nat.eqb_eq in U. subst u. reflexivity.
Qed.

(** ** Theorems on beams *)

(** Whatever the beam marks: each beam that is found joins notes or chords of a single voice, in their order; every
    beamed note is in exactly one of them, no other is; and beams of a voice may nest, but do not overlap. *)
Theorem C89_beams : forall l, in_order l ->
  NoDup (beams_of l) /\
  (forall s, In s (beams_of l) -> bs_notes s <> [] /\ StronglySorted lt (bs_notes s) /\ forall x, In x (bs_notes s) -> exists g, In (x, bs_voice s, g) l /\ beamed g) /\
  (forall i v g, In (i, v, g) l -> beamed g -> exists! s, In s (beams_of l) /\ In i (bs_notes s)) /\
  (forall s t, In s (beams_of l) -> In t (beams_of l) -> bs_voice s = bs_voice t -> ~ crosses (bs_notes s) (bs_notes t)).
Proof.
  intros l O. destruct (run_ok l 0 _ inv_0 O (fun _ _ => PeanoNat.Nat.le_0_l _)) as (n & I & M). unfold beams_of. set (st := beams_from _ l) in *.
  assert (M0 : forall x w, ~ member (BState [] (fun _ => [])) x w) by (intros x w (s & [] & _)).
  repeat split.
  - apply (NoDup_map_inv bs_id). apply (i_ids _ _ I).
  - destruct (i_head _ _ I s H) as (r & ->). discriminate.
  - apply (i_sorted _ _ I s H).
  - intros x X. destruct (proj1 (M x (bs_voice s))) as [X'|X']; [exists s; auto|destruct (M0 _ _ X')|exact X'].
  - intros i v g E B. destruct (proj2 (M i v)) as (s & S & V & X); [right; exists g; auto|]. exists s. split; [auto|]. intros t [T Y]. apply (i_disj _ _ I s t i); assumption.
  - intros s t HS HT V (C1 & C2 & C3). destruct (i_head _ _ I s HS) as (r & R), (i_head _ _ I t HT) as (r' & R'). rewrite R in C1, C2. rewrite R' in C1, C2. cbn [hd] in C1, C2.
    assert (LS : In (last (bs_notes s) 0) (bs_notes s)) by (rewrite (app_removelast_last (l := bs_notes s) 0) at 2 by (rewrite R; discriminate); apply in_app_iff; right; left; reflexivity).
    assert (LT : In (last (bs_notes t) 0) (bs_notes t)) by (rewrite (app_removelast_last (l := bs_notes t) 0) at 2 by (rewrite R'; discriminate); apply in_app_iff; right; left; reflexivity).
    rewrite <- R in C2. assert (NE : bs_id t <> last (bs_notes s) 0).
    { intros E. assert (s = t); [|subst; lia]. apply (i_disj _ _ I s t (bs_id t)); auto; [rewrite E; exact LS|rewrite R'; left; reflexivity]. }
    destruct (i_nest _ _ I s t (last (bs_notes s) 0) HS HT V LS) as [_ N]; [lia|lia|]. apply N in LT. lia.
Qed.
Print Assumptions C89_beams.

(** If the beams of a voice are marked as they should be, exactly its groups are found, in order, whatever
    stands in the other voices. *)
Theorem C89_groups : forall l v gs, in_order l ->
  marked (map (fun e => (pos e, snd e)) (filter (fun e => Nat.eqb (voice_of e) v) l)) gs ->
  map bs_notes (filter (fun s => Nat.eqb (bs_voice s) v) (beams_of l)) = gs.
Proof.
  intros l v gs O M. change (fun s => bs_voice s =? v) with (of_voice v). unfold beams_of.
  rewrite (proj v l 0 (BState [] (fun _ => [])) (BState [] (fun _ => [])) inv_0 inv_0 O (fun _ _ => PeanoNat.Nat.le_0_l _) eq_refl eq_refl).
  rewrite <- (tag_voice v l). rewrite (marked_run v _ gs M 0 _ inv_0); [|apply asc_order; [apply order_filter; exact O|intros; lia]|reflexivity].
  cbn [b_spanners app]. clear. induction gs as [|g gs IH]; [reflexivity|]. cbn [map filter]. unfold of_voice at 1. cbn [mk bs_voice]. rewrite PeanoNat.Nat.eqb_refl. cbn [map bs_notes]. f_equal. exact IH.
Qed.
Print Assumptions C89_groups.

(** Two voices, one after the other within each measure; in the first a beam of three notes around a group of two grace notes. *)
Definition beam_note (marks : list (nat * beam_mark)) (mx : nat) : gnote := GNote true marks mx true false [].
Definition c89_ex : list entry :=
  [ (0, 1, beam_note [(1, BStart)] 1); (1, 1, beam_note [(1, BStart); (2, BStart)] 9); (2, 1, beam_note [(1, BStop); (2, BStop)] 9);
    (3, 2, beam_note [(1, BStart); (2, BPartialRight)] 2); (4, 2, beam_note [(1, BContinue)] 1);
    (5, 1, beam_note [(1, BContinue); (2, BStart)] 2); (6, 1, GNote false [] 0 true false []); (7, 1, beam_note [(1, BStop); (2, BStop); (3, BStart)] 2);
    (8, 2, beam_note [(1, BStop); (2, BPartialLeft)] 2); (9, 2, beam_note [] 0) ].
Ltac marks := repeat split; cbv; try discriminate; try (repeat constructor; fail); try (intros [H1 H2]; repeat (inversion H2; subst; clear H2; intuition discriminate)).
Example C89_nonvacuous :
  in_order c89_ex /\
  marked (map (fun e => (pos e, snd e)) (filter (fun e => Nat.eqb (voice_of e) 1) c89_ex)) [[0; 5; 7]; [1; 2]] /\
  marked (map (fun e => (pos e, snd e)) (filter (fun e => Nat.eqb (voice_of e) 2) c89_ex)) [[3; 4; 8]] /\
  map bs_notes (beams_of c89_ex) = [[0; 5; 7]; [1; 2]; [3; 4; 8]].
Proof.
  assert (S1 : forall b, b = BStart -> b = BStart \/ b = BPartialRight) by auto.
  split; [|split; [|split]].
  - repeat constructor.
  - cbn. change [(1, beam_note [(1, BStart); (2, BStart)] 9); (2, beam_note [(1, BStop); (2, BStop)] 9); (5, beam_note [(1, BContinue); (2, BStart)] 2); (6, GNote false [] 0 true false []); (7, beam_note [(1, BStop); (2, BStop); (3, BStart)] 2)]
      with ([(1, beam_note [(1, BStart); (2, BStart)] 9); (2, beam_note [(1, BStop); (2, BStop)] 9); (5, beam_note [(1, BContinue); (2, BStart)] 2); (6, GNote false [] 0 true false []); (7, beam_note [(1, BStop); (2, BStop); (3, BStart)] 2)] ++ []).
    apply (M_group 0 _ _ [5; 7] [[1; 2]] [] []); [apply opens_iff; reflexivity| |constructor].
    apply (B_inner 1 _ [(2, beam_note [(1, BStop); (2, BStop)] 9)] [2] [] [(5, beam_note [(1, BContinue); (2, BStart)] 2); (6, GNote false [] 0 true false []); (7, beam_note [(1, BStop); (2, BStop); (3, BStart)] 2)] [5; 7] []); [apply opens_iff; reflexivity|apply B_last; apply closes_iff; reflexivity|].
    apply B_mid; [discriminate|rewrite opens_iff; discriminate|rewrite closes_iff; discriminate|]. apply B_plain; [intros H; apply H; reflexivity|]. apply B_last. apply closes_iff. reflexivity.
  - cbn. apply (M_group 3 _ [(4, beam_note [(1, BContinue)] 1); (8, beam_note [(1, BStop); (2, BPartialLeft)] 2)] [4; 8] [] [(9, beam_note [] 0)] []); [apply opens_iff; reflexivity| |].
    + apply B_mid; [discriminate|rewrite opens_iff; discriminate|rewrite closes_iff; discriminate|]. apply B_last. apply closes_iff. reflexivity.
    + apply M_plain; [intros H; apply H; reflexivity|constructor].
  - vm_compute. reflexivity.
Qed.

(** ** Tuplets *)

(** A voice of a measure as brackets and notes: each note opens the brackets of the tuplets that start on it,
    and closes those of the ones that end on it. *)
Inductive event := Open | N (i : nat) | Close.
Definition opened (ts : list tuplet_mark) : nat := length (filter (fun t => match t with TStart | TStartStop => true | _ => false end) ts).
Definition closed (ts : list tuplet_mark) : nat := length (filter (fun t => match t with TStop | TStartStop => true | _ => false end) ts).
Definition events (e : nat * gnote) : list event :=
  let (i, g) := e in
  if g_general g then match g_tuplets g with [] => [] | ts => repeat Open (opened ts) ++ N i :: repeat Close (closed ts) end else [].
Definition word (l : list (nat * gnote)) : list event := flat_map events l.
(** Balanced words, with their notes and with the notes of their bracketed groups. *)
Inductive bal : list event -> list nat -> list (list nat) -> Prop :=
| bal_nil : bal [] [] []
| bal_note i w ns gs : bal w ns gs -> bal (N i :: w) (i :: ns) gs
| bal_group w1 n1 g1 w2 n2 g2 : bal w1 n1 g1 -> bal w2 n2 g2 -> bal (Open :: w1 ++ Close :: w2) (n1 ++ n2) (n1 :: g1 ++ g2).
(** Each note, but grace notes, has as many tuplets as there are brackets around it. *)
Fixpoint listed (d : nat) (l : list (nat * gnote)) : Prop :=
  match l with
  | [] => True
  | (_, g) :: r =>
      if g_general g then
        match g_tuplets g with
        | [] => (d = 0 \/ g_grace g = true) /\ listed d r
        | ts => length ts = d + opened ts /\ closed ts <= d + opened ts /\ listed (d + opened ts - closed ts) r
        end
      else listed d r
  end.

(** *** Proofs *)
Definition exec1 (st : tstate) (e : event) : tstate := match e with Open => open_tuplet st | N i => add_note i st | Close => close_tuplet st end.
Definition exec (st : tstate) (w : list event) : tstate := fold_left exec1 w st.
Lemma exec_app st w1 w2 : exec st (w1 ++ w2) = exec (exec st w1) w2.
Proof. apply fold_left_app. Qed.
Lemma exec_cons st e w : exec st (e :: w) = exec (exec1 st e) w.
Proof. reflexivity. Qed.

Fixpoint addm (k : nat) (ids : list nat) (ns : list nat) (l : list (list nat)) : list (list nat) :=
  match l with [] => [] | e :: r => (if existsb (Nat.eqb k) ids then e ++ ns else e) :: addm (S k) ids ns r end.
Lemma add_at_addm : forall l k ids i, add_at k ids i l = addm k ids [i] l.
Proof. induction l as [|e l IH]; intros; cbn; [reflexivity|]. rewrite IH. reflexivity. Qed.
Lemma addm_nil : forall l k ids, addm k ids [] l = l.
Proof. induction l as [|e l IH]; intros; cbn; [reflexivity|]. rewrite IH, app_nil_r. destruct (existsb (Nat.eqb k) ids); reflexivity. Qed.
Lemma addm_addm : forall l k ids n1 n2, addm k ids n2 (addm k ids n1 l) = addm k ids (n1 ++ n2) l.
Proof. induction l as [|e l IH]; intros; cbn; [reflexivity|]. rewrite IH. destruct (existsb (Nat.eqb k) ids); [rewrite <- app_assoc|]; reflexivity. Qed.
Lemma addm_app : forall l1 k ids ns l2, addm k ids ns (l1 ++ l2) = addm k ids ns l1 ++ addm (k + length l1) ids ns l2.
Proof. induction l1 as [|e l1 IH]; intros; cbn; [rewrite PeanoNat.Nat.add_0_r; reflexivity|]. rewrite IH. do 3 f_equal. lia. Qed.
Lemma addm_length : forall l k ids ns, length (addm k ids ns l) = length l.
Proof. induction l as [|e l IH]; intros; cbn; [reflexivity|]. rewrite IH. reflexivity. Qed.
Lemma addm_out : forall l k ids ns, (forall x, In x ids -> x < k) -> addm k ids ns l = l.
Proof.
  induction l as [|e l IH]; intros k ids ns H; cbn; [reflexivity|]. rewrite IH by (intros x X; apply H in X; lia). destruct (existsb (Nat.eqb k) ids) eqn:E; [|reflexivity]. exfalso. apply existsb_exists in E. destruct E as (x & X & E). apply PeanoNat.Nat.eqb_eq in E. apply H in X. lia.
Qed.
Lemma addm_cons_out : forall l k j ids ns, k + length l <= j -> addm k (j :: ids) ns l = addm k ids ns l.
Proof. induction l as [|e l IH]; intros k j ids ns H; cbn [addm]; [reflexivity|]. cbn [length] in H. rewrite IH by lia. cbn [existsb]. rewrite (proj2 (PeanoNat.Nat.eqb_neq k j)) by lia. reflexivity. Qed.

Lemma bal_exec w ns gs : bal w ns gs -> forall sp cur, (forall x, In x cur -> x < length sp) -> exec (TState sp cur) w = TState (addm 0 cur ns sp ++ gs) cur.
Proof.
  induction 1 as [|i w ns gs _ IH|w1 n1 g1 w2 n2 g2 _ IH1 _ IH2]; intros sp cur H.
  - cbn. rewrite addm_nil, app_nil_r. reflexivity.
  - rewrite exec_cons. cbn [exec1]. unfold add_note. cbn [t_current t_spanners]. rewrite add_at_addm, IH by (rewrite addm_length; exact H). rewrite addm_addm. reflexivity.
  - rewrite exec_cons. cbn [exec1]. unfold open_tuplet. cbn [t_current t_spanners]. rewrite exec_app, IH1 by (intros x [<-|X]; rewrite app_length; cbn [length]; [lia|apply H in X; lia]).
    rewrite exec_cons. cbn [exec1]. unfold close_tuplet. cbn [t_current t_spanners tl]. rewrite addm_app. cbn [addm PeanoNat.Nat.add plus existsb]. rewrite PeanoNat.Nat.eqb_refl. cbn [orb app]. rewrite addm_cons_out by (cbn; lia).
    rewrite <- app_assoc. cbn [app]. rewrite IH2 by (intros x X; apply H in X; rewrite app_length, addm_length; lia).
    rewrite addm_app, addm_addm, addm_length. rewrite (addm_out (n1 :: g1)) by (intros x X; apply H in X; cbn; lia). rewrite <- app_assoc. reflexivity.
Qed.

Lemma opened_le ts : opened ts <= length ts.
Proof. unfold opened. induction ts as [|t ts IH]; cbn [filter length]; [lia|]. destruct t; cbn [length]; lia. Qed.
Lemma opens_run : forall ts st, (t_current st = [] -> length ts = opened ts) ->
  fold_left (fun s t => if startsTuplet t || (match t with TNone => true | _ => false end) && (match t_current s with [] => true | _ => false end) then open_tuplet s else s) ts st = exec st (repeat Open (opened ts)).
Proof.
  induction ts as [|t ts IH]; intros st H; [reflexivity|]. cbn [fold_left]. pose proof (opened_le ts) as L. unfold opened in *. cbn [filter length] in *.
  destruct t; cbn [startsTuplet orb andb length repeat] in *; try (rewrite exec_cons; apply IH; discriminate).
  - apply IH. intros C. specialize (H C). lia.
  - destruct (t_current st) as [|c cur] eqn:C; cbn [andb]; [specialize (H eq_refl); lia|]. apply IH. congruence.
Qed.
Lemma closes_run : forall ts st, fold_left (fun s t => if stopsTuplet t then close_tuplet s else s) ts st = exec st (repeat Close (closed ts)).
Proof. induction ts as [|t ts IH]; intros st; [reflexivity|]. cbn [fold_left]. unfold closed in *. cbn [filter]. destruct t; cbn [stopsTuplet length repeat]; rewrite ?exec_cons; apply IH. Qed.
Lemma exec_opens_depth : forall n st, length (t_current (exec st (repeat Open n))) = length (t_current st) + n.
Proof. induction n as [|n IH]; intros st; cbn [repeat]; [cbn; lia|]. rewrite exec_cons, IH. cbn. lia. Qed.
Lemma exec_closes_depth : forall n st, length (t_current (exec st (repeat Close n))) = length (t_current st) - n.
Proof. induction n as [|n IH]; intros st; cbn [repeat]; [cbn; lia|]. rewrite exec_cons, IH. cbn. destruct (t_current st); cbn; lia. Qed.

Lemma listed_exec : forall l st, listed (length (t_current st)) l -> tuplets_from st l = exec st (word l).
Proof.
  induction l as [|[i g] l IH]; intros st H; [reflexivity|]. cbn [tuplets_from]. cbn [word flat_map]. rewrite exec_app. cbn [listed] in H. unfold annotateTuplets. cbn [events]. destruct (g_general g); cbn [negb]; [|apply IH; exact H].
  destruct (g_tuplets g) as [|t ts] eqn:T.
  - destruct H as [H1 H2]. cbn [andb fold_left]. change (exec st []) with st. destruct (t_current st) as [|c cur] eqn:C; cbn [negb].
    + unfold add_note. rewrite C. replace (TState (add_at 0 [] i (t_spanners st)) []) with st; [apply IH; rewrite C; exact H2|]. rewrite add_at_addm, addm_out by (intros x []). destruct st as [sp cu]. cbn in *. congruence.
    + destruct H1 as [H1|H1]; [discriminate|]. rewrite H1. apply IH. rewrite C. exact H2.
  - rewrite <- T in *. destruct H as (H1 & H2 & H3). cbn [andb].
    replace (match g_tuplets g with [] => true | _ :: _ => false end) with false by (rewrite T; reflexivity). cbn [andb]. rewrite opens_run by (intros C; rewrite C in H1; cbn in H1; exact H1). rewrite closes_run.
    rewrite exec_app, exec_cons. cbn [exec1]. apply IH. rewrite exec_closes_depth. unfold add_note. cbn [t_current]. rewrite exec_opens_depth. exact H3.
Qed.

(** Laminar families. *)
Record tinv (n : nat) (st : tstate) : Prop := TInv {
  ti_cur : forall x, In x (t_current st) -> x < length (t_spanners st);
  ti_stack : StronglySorted gt (t_current st);
  ti_bound : forall a x, In x (nth a (t_spanners st) []) -> x < n;
  ti_sorted : forall a, StronglySorted lt (nth a (t_spanners st) []);
  ti_nest : forall a b, a < b -> b < length (t_spanners st) ->
    (incl (nth b (t_spanners st) []) (nth a (t_spanners st) []) /\ (In b (t_current st) -> In a (t_current st)))
    \/ ((forall x, In x (nth a (t_spanners st) []) -> In x (nth b (t_spanners st) []) -> False) /\ ~ In a (t_current st)) }.
Definition full (st : tstate) : Prop := forall a, a < length (t_spanners st) -> nth a (t_spanners st) [] <> [].
Definition full_or_current (st : tstate) : Prop := forall a, a < length (t_spanners st) -> nth a (t_spanners st) [] <> [] \/ In a (t_current st).

Lemma nth_addm : forall l k ids ns a, a < length l -> nth a (addm k ids ns l) [] = if existsb (Nat.eqb (k + a)) ids then nth a l [] ++ ns else nth a l [].
Proof.
  induction l as [|e l IH]; intros k ids ns a H; [cbn in H; lia|]. cbn [addm]. destruct a as [|a]; cbn [nth]; [rewrite PeanoNat.Nat.add_0_r; reflexivity|]. cbn [length] in H. rewrite IH by lia. replace (k + S a) with (S k + a) by lia. reflexivity.
Qed.
Lemma nth_add st i a : nth a (t_spanners (add_note i st)) [] = nth a (t_spanners st) [] \/ (In a (t_current st) /\ nth a (t_spanners (add_note i st)) [] = nth a (t_spanners st) [] ++ [i]).
Proof.
  unfold add_note. cbn [t_spanners]. rewrite add_at_addm. destruct (PeanoNat.Nat.lt_ge_cases a (length (t_spanners st))) as [L|L].
  - rewrite nth_addm by exact L. cbn [plus]. destruct (existsb (Nat.eqb a) (t_current st)) eqn:E; [|left; reflexivity]. right. split; [|reflexivity]. apply existsb_exists in E. destruct E as (x & X & E). apply PeanoNat.Nat.eqb_eq in E. subst. exact X.
  - left. rewrite !nth_overflow; [reflexivity|exact L|rewrite addm_length; exact L].
Qed.
Lemma nth_add_cur st i a : In a (t_current st) -> a < length (t_spanners st) -> nth a (t_spanners (add_note i st)) [] = nth a (t_spanners st) [] ++ [i].
Proof.
  intros C L. unfold add_note. cbn [t_spanners]. rewrite add_at_addm, nth_addm by exact L. cbn [plus]. rewrite (proj2 (existsb_exists _ _)); [reflexivity|]. exists a. split; [exact C|apply PeanoNat.Nat.eqb_refl].
Qed.
Lemma add_len st i : length (t_spanners (add_note i st)) = length (t_spanners st).
Proof. unfold add_note. cbn [t_spanners]. rewrite add_at_addm. apply addm_length. Qed.

Lemma tinv_mono n n' st : n <= n' -> tinv n st -> tinv n' st.
Proof. intros H [A1 A2 A3 A4 A5]. split; auto. intros a x X. apply A3 in X. lia. Qed.
Lemma tinv_open n st : tinv n st -> tinv n (open_tuplet st).
Proof.
  intros [A1 A2 A3 A4 A5]. unfold open_tuplet. set (sp := t_spanners st) in *.
  assert (NTH : forall a, nth a (sp ++ [[]]) [] = nth a sp []).
  { intros a. destruct (PeanoNat.Nat.lt_ge_cases a (length sp)) as [L|L]; [apply app_nth1; exact L|]. rewrite app_nth2 by exact L. rewrite (nth_overflow sp) by exact L. destruct (a - length sp) as [|[|k]]; reflexivity. }
  split; cbn [t_spanners t_current].
  - intros x [<-|X]; rewrite app_length; cbn [length]; [lia|apply A1 in X; lia].
  - constructor; [exact A2|]. apply Forall_forall. intros x X. apply A1 in X. exact X.
  - intros a x X. rewrite NTH in X. apply (A3 a x X).
  - intros a. rewrite NTH. apply A4.
  - intros a b L1 L2. rewrite !NTH. rewrite app_length in L2. cbn [length] in L2. destruct (PeanoNat.Nat.eq_dec b (length sp)) as [->|NE].
    + rewrite (nth_overflow sp [] (n := length sp)) by lia. destruct (in_dec PeanoNat.Nat.eq_dec a (t_current st)) as [C|C].
      * left. split; [intros x []|]. intros _. right. exact C.
      * right. split; [auto|]. intros [E|X]; [lia|auto].
    + destruct (A5 a b L1) as [[H1 H2]|[H1 H2]]; [lia| |].
      * left. split; [exact H1|]. intros [E|X]; [lia|]. right. auto.
      * right. split; [exact H1|]. intros [E|X]; [lia|auto].
Qed.
Lemma tinv_add n st i : tinv n st -> n <= i -> tinv (S i) (add_note i st).
Proof.
  intros [A1 A2 A3 A4 A5] H. split.
  - intros x X. rewrite add_len. apply A1. exact X.
  - exact A2.
  - intros a x X. destruct (nth_add st i a) as [E|[_ E]]; rewrite E in X; [apply A3 in X; lia|]. apply in_app_iff in X. destruct X as [X|[<-|[]]]; [apply A3 in X|]; lia.
  - intros a. destruct (nth_add st i a) as [E|[_ E]]; rewrite E; [apply A4|]. apply sorted_snoc; [apply A4|]. intros y Y. apply A3 in Y. lia.
  - intros a b L1 L2. rewrite add_len in L2. destruct (A5 a b L1 L2) as [[H1 H2]|[H1 H2]].
    + left. split; [|exact H2]. intros x X. destruct (nth_add st i b) as [E|[C E]]; rewrite E in X.
      * apply H1 in X. destruct (nth_add st i a) as [E'|[_ E']]; rewrite E'; [exact X|apply in_app_iff; left; exact X].
      * rewrite nth_add_cur by (auto; lia). apply in_app_iff in X. apply in_app_iff. destruct X as [X|X]; [left; auto|right; exact X].
    + right. split; [|exact H2]. intros x X Y. destruct (nth_add st i a) as [E|[C E]]; [|contradiction]. rewrite E in X. destruct (nth_add st i b) as [E'|[_ E']]; rewrite E' in Y; [eauto|]. apply in_app_iff in Y. destruct Y as [Y|[<-|[]]]; [eauto|]. apply A3 in X. lia.
Qed.
Lemma tinv_close n st : tinv n st -> tinv n (close_tuplet st).
Proof.
  intros [A1 A2 A3 A4 A5]. unfold close_tuplet. destruct (t_current st) as [|c cur] eqn:C; cbn [tl]; split; cbn [t_spanners t_current]; auto.
  - intros x X. apply A1. right. exact X.
  - inversion A2; assumption.
  - inversion A2 as [|? ? _ F]; subst. rewrite Forall_forall in F. intros a b L1 L2. destruct (A5 a b L1 L2) as [[H1 H2]|[H1 H2]].
    + left. split; [exact H1|]. intros B. destruct (H2 (or_intror B)) as [<-|X]; [|exact X]. apply F in B. unfold gt in B. lia.
    + right. split; [exact H1|]. intros X. apply H2. right. exact X.
Qed.

(** What is in the spanners, by way of a predicate. *)
Definition within (P : nat -> Prop) (st : tstate) : Prop := forall a x, In x (nth a (t_spanners st) []) -> P x.

Ltac cj := repeat match goal with |- _ /\ _ => split end.
Lemma fold_opens : forall ts n st, tinv n st -> full_or_current st ->
  let st' := fold_left (fun s t => if startsTuplet t || (match t with TNone => true | _ => false end) && (match t_current s with [] => true | _ => false end) then open_tuplet s else s) ts st in
  tinv n st' /\ full_or_current st' /\ (forall x, In x (concat (t_spanners st')) <-> In x (concat (t_spanners st))) /\ length (t_spanners st) <= length (t_spanners st') /\ (forall a, a < length (t_spanners st) -> nth a (t_spanners st') [] = nth a (t_spanners st) []) /\
  (forall a, length (t_spanners st) <= a -> nth a (t_spanners st') [] = []) /\ (t_current st <> [] -> t_current st' <> []) /\ ((exists t, In t ts /\ t <> TStop) -> t_current st' <> []).
Proof.
  induction ts as [|t ts IH]; intros n st I F; cbn [fold_left].
  - cj; auto; [tauto|intros a L; apply nth_overflow; exact L|]. intros (t & [] & _).
  - set (st1 := if startsTuplet t || (match t with TNone => true | _ => false end) && (match t_current st with [] => true | _ => false end) then open_tuplet st else st).
    assert (NTH : forall a, nth a (t_spanners st ++ [[]]) [] = nth a (t_spanners st) []).
    { intros a. destruct (PeanoNat.Nat.lt_ge_cases a (length (t_spanners st))) as [L|L]; [apply app_nth1; exact L|]. rewrite app_nth2 by exact L. rewrite (nth_overflow (t_spanners st)) by exact L. destruct (a - length (t_spanners st)) as [|[|k]]; reflexivity. }
    assert (ONE : (st1 = open_tuplet st) \/ (st1 = st /\ (t <> TStop -> t_current st <> []))).
    { unfold st1. destruct t; cbn [startsTuplet orb andb]; auto. destruct (t_current st); auto. right. split; [reflexivity|discriminate]. }
    clearbody st1. assert (I1 : tinv n st1) by (destruct ONE as [->|[-> _]]; [apply tinv_open|]; exact I).
    assert (F1 : full_or_current st1).
    { destruct ONE as [->|[-> _]]; [|exact F]. intros a L. unfold open_tuplet in *. cbn [t_spanners t_current] in *. rewrite NTH. rewrite app_length in L. cbn [length] in L. destruct (PeanoNat.Nat.eq_dec a (length (t_spanners st))) as [->|NE]; [right; left; reflexivity|]. destruct (F a) as [X|X]; [lia|left; exact X|right; right; exact X]. }
    destruct (IH n st1 I1 F1) as (R1 & R2 & R3 & R4 & R5 & R6 & R7 & R8). set (st' := fold_left _ ts st1) in *. clearbody st'. cj; auto.
    + intros x. rewrite R3. destruct ONE as [->|[-> _]]; [|tauto]. unfold open_tuplet. cbn [t_spanners]. rewrite concat_app, in_app_iff. cbn. tauto.
    + destruct ONE as [E|[E _]]; rewrite E in R4; [|exact R4]. unfold open_tuplet in R4. cbn [t_spanners] in R4. rewrite app_length in R4. lia.
    + intros a L. destruct ONE as [E|[E _]]; [|rewrite E in *; apply R5; exact L]. rewrite R5, E; [apply NTH|rewrite E; unfold open_tuplet; cbn [t_spanners]; rewrite app_length; lia].
    + intros a L. destruct (PeanoNat.Nat.lt_ge_cases a (length (t_spanners st1))) as [L'|L']; [|apply R6; exact L']. rewrite R5 by exact L'. destruct ONE as [E|[E _]]; rewrite E; [cbn [open_tuplet t_spanners]; rewrite NTH|]; apply nth_overflow; exact L.
    + intros C. apply R7. destruct ONE as [E|[E _]]; rewrite E; [discriminate|exact C].
    + intros (t' & [<-|T] & NS); [|apply R8; exists t'; auto]. apply R7. destruct ONE as [E|[E C]]; rewrite E; [discriminate|auto].
Qed.
Lemma fold_closes : forall ts n st, tinv n st -> let st' := fold_left (fun s t => if stopsTuplet t then close_tuplet s else s) ts st in tinv n st' /\ t_spanners st' = t_spanners st.
Proof.
  induction ts as [|t ts IH]; intros n st I; cbn [fold_left]; [auto|]. destruct (stopsTuplet t); [|apply IH; exact I]. destruct (IH n (close_tuplet st) (tinv_close _ _ I)) as [R1 R2]. split; [exact R1|]. rewrite R2. reflexivity.
Qed.

(** One note. *)
Lemma tstep n st i g : tinv n st -> full st -> n <= i ->
  let st' := annotateTuplets st i g in
  tinv (S i) st' /\ full st' /\
  (forall a x, In x (nth a (t_spanners st') []) -> (In x (nth a (t_spanners st) []) \/ (x = i /\ g_general g = true /\ g_tuplets g <> []))) /\
  (forall a, a < length (t_spanners st) -> incl (nth a (t_spanners st) []) (nth a (t_spanners st') [])) /\ length (t_spanners st) <= length (t_spanners st') /\
  (forall a, a < length (t_spanners st) -> ~ In a (t_current st) -> nth a (t_spanners st') [] = nth a (t_spanners st) [] /\ ~ In a (t_current st')) /\
  (g_general g = true -> (exists t, In t (g_tuplets g) /\ t <> TStop) -> exists a, In i (nth a (t_spanners st') [])).
Proof.
  intros I F Hi. cbv zeta. unfold annotateTuplets. destruct (g_general g) eqn:G; cbn [negb].
  2: { split; [apply (tinv_mono n); [lia|exact I]|]. cj; auto; [intros a _ x X; exact X|discriminate]. }
  destruct (g_tuplets g) as [|t ts] eqn:T.
  - cbn [andb]. destruct (t_current st) as [|c cur] eqn:C; cbn [negb andb].
    + cbn [fold_left]. assert (E : add_note i st = st) by (unfold add_note; rewrite C, add_at_addm, addm_out by (intros x []); destruct st as [sp cu]; cbn in *; congruence). rewrite E. split; [apply (tinv_mono n); [lia|exact I]|]. cj; auto; [intros a _ x X; exact X|rewrite C; auto|intros _ (t & [] & _)].
    + destruct (g_grace g).
      * split; [apply (tinv_mono n); [lia|exact I]|]. cj; auto; [intros a _ x X; exact X|rewrite C; auto|intros _ (t & [] & _)].
      * split; [apply (tinv_mono n); [lia|apply tinv_close; exact I]|]. cj; auto; [intros a _ x X; exact X| |intros _ (t & [] & _)]. intros a L NC. split; [reflexivity|]. unfold close_tuplet. cbn [t_current]. rewrite C. cbn [tl]. intros X. apply NC. right. exact X.
  - rewrite <- T. replace (match g_tuplets g with [] => true | _ :: _ => false end) with false by (rewrite T; reflexivity). cbn [andb].
    assert (FC : full_or_current st) by (intros a L; left; apply F; exact L).
    pose proof (fold_opens (g_tuplets g) n st I FC) as P. cbv zeta in P. set (st1 := fold_left _ (g_tuplets g) st) in *. destruct P as (R1 & R2 & R3 & R4 & R5 & R6 & R7 & R8).
    assert (NEW : forall a, a < length (t_spanners st) -> ~ In a (t_current st) -> ~ In a (t_current st1)).
    { intros a L NC. unfold st1. clear - L NC. revert st L NC. induction (g_tuplets g) as [|t ts IH]; intros st L NC; cbn [fold_left]; [exact NC|]. apply IH.
      - destruct (startsTuplet t || _); [unfold open_tuplet; cbn [t_spanners]; rewrite app_length; lia|exact L].
      - destruct (startsTuplet t || _); [unfold open_tuplet; cbn [t_current]; intros [E|X]; [lia|auto]|exact NC]. }
    pose proof (tinv_add n st1 i R1 Hi) as I2. destruct (fold_closes (g_tuplets g) (S i) (add_note i st1) I2) as [I3 E3].
    set (st3 := fold_left (fun s t0 => if stopsTuplet t0 then close_tuplet s else s) (g_tuplets g) (add_note i st1)) in *.
    split; [exact I3|]. rewrite !E3.
    assert (OLD : forall a, In a (t_current st3) -> In a (t_current st1)).
    { intros a. unfold st3. change (t_current st1) with (t_current (add_note i st1)). generalize (add_note i st1) as s. clear. induction (g_tuplets g) as [|t ts IH]; intros s X; cbn [fold_left] in X; [exact X|]. apply IH in X. destruct (stopsTuplet t); [|exact X]. unfold close_tuplet in X. cbn [t_current] in X. destruct (t_current s); [exact X|right; exact X]. }
    cj.
    + intros a L. rewrite E3 in *. rewrite add_len in L. destruct (R2 a L) as [X|X].
      * destruct (nth_add st1 i a) as [E|[_ E]]; rewrite E; [exact X|]. destruct (nth a (t_spanners st1) []); [contradiction|discriminate].
      * rewrite (nth_add_cur st1 i a X L). destruct (nth a (t_spanners st1) []); discriminate.
    + intros a x X. assert (Y : In x (nth a (t_spanners st1) []) \/ x = i) by (destruct (nth_add st1 i a) as [E|[_ E]]; rewrite E in X; [auto|]; apply in_app_iff in X; destruct X as [X|[<-|[]]]; auto).
      destruct Y as [Y|Y]; [|right; repeat split; auto; rewrite T; discriminate]. left. destruct (PeanoNat.Nat.lt_ge_cases a (length (t_spanners st))) as [L|L]; [rewrite R5 in Y by exact L; exact Y|rewrite R6 in Y by exact L; destruct Y].
    + intros a L x X. rewrite <- R5 in X by exact L. destruct (nth_add st1 i a) as [E|[_ E]]; rewrite E; [exact X|apply in_app_iff; left; exact X].
    + rewrite add_len. exact R4.
    + intros a L NC. split.
      * destruct (nth_add st1 i a) as [E|[C _]]; [rewrite E; apply R5; assumption|]. exfalso. revert C. apply NEW; assumption.
      * intros X. apply OLD in X. revert X. apply NEW; assumption.
    + intros _ ST. apply R8 in ST. destruct (t_current st1) as [|c cur] eqn:C; [contradiction|]. exists c. rewrite nth_add_cur; [apply in_app_iff; right; left; reflexivity|rewrite C; left; reflexivity|apply (ti_cur _ _ R1); rewrite C; left; reflexivity].
Qed.
Definition in_tuplet (g : gnote) : Prop := g_general g = true /\ g_tuplets g <> [].
Lemma vrun : forall l n st, tinv n st -> full st -> asc n l ->
  let st' := tuplets_from st l in
  tinv (fin n l) st' /\ full st' /\
  (forall a x, In x (nth a (t_spanners st') []) -> In x (nth a (t_spanners st) []) \/ (exists g, In (x, g) l /\ in_tuplet g)) /\
  (forall a, a < length (t_spanners st) -> incl (nth a (t_spanners st) []) (nth a (t_spanners st') [])) /\ length (t_spanners st) <= length (t_spanners st') /\
  (forall a, a < length (t_spanners st) -> ~ In a (t_current st) -> nth a (t_spanners st') [] = nth a (t_spanners st) []) /\
  (forall i g, In (i, g) l -> g_general g = true -> (exists t, In t (g_tuplets g) /\ t <> TStop) -> exists a, In i (nth a (t_spanners st') [])).
Proof.
  induction l as [|[i g] l IH]; intros n st I F A; cbn [tuplets_from fin].
  - cj; auto; [intros a _ x X; exact X|intros i g []].
  - cbn [asc] in A. destruct A as [A1 A2]. pose proof (tstep n st i g I F A1) as P. cbv zeta in P. set (st1 := annotateTuplets st i g) in *. clearbody st1. destruct P as (P1 & P2 & P3 & P4 & P5 & P6 & P7).
    destruct (IH (S i) st1 P1 P2 A2) as (R1 & R2 & R3 & R4 & R5 & R6 & R7). set (st2 := tuplets_from st1 l) in *. clearbody st2.
    assert (KEEP : forall a, incl (nth a (t_spanners st1) []) (nth a (t_spanners st2) [])).
    { intros a. destruct (PeanoNat.Nat.lt_ge_cases a (length (t_spanners st1))) as [L|L]; [apply R4; exact L|]. rewrite nth_overflow by exact L. intros x []. }
    cj; auto.
    + intros a x X. destruct (R3 a x X) as [Y|(g' & G1 & G2)]; [|right; exists g'; split; [right; exact G1|exact G2]]. destruct (P3 a x Y) as [Z|(-> & Z)]; [left; exact Z|]. right. exists g. split; [left; reflexivity|exact Z].
    + intros a L x X. apply KEEP. apply P4; assumption.
    + lia.
    + intros a L C. destruct (P6 a L C) as [E C']. rewrite R6 by (lia || exact C'). exact E.
    + intros j h [E|J] G T; [|eapply R7; eassumption]. injection E as <- <-. destruct (P7 G T) as (a & X). exists a. apply KEEP. exact X.
Qed.

Lemma all_run : forall vs n sp, tinv n (TState sp []) -> full (TState sp []) -> asc n (concat vs) ->
  let sp' := fold_left tuplets_of_voice vs sp in
  (exists n', tinv n' (TState sp' [])) /\ full (TState sp' []) /\ (exists new, sp' = sp ++ new /\ (forall s, In s new -> exists v, In v vs /\ forall x, In x s -> exists g, In (x, g) v /\ in_tuplet g) /\
  (forall v i g, In v vs -> In (i, g) v -> g_general g = true -> (exists t, In t (g_tuplets g) /\ t <> TStop) -> exists s, In s (sp ++ new) /\ In i s)).
Proof.
  induction vs as [|v vs IH]; intros n sp I F A; cbn [fold_left].
  - split; [exists n; exact I|]. split; [exact F|]. exists []. rewrite app_nil_r. cj; auto; [intros s []|intros v i g []].
  - cbn [concat] in A. apply asc_app in A. destruct A as [A1 A2]. change (tuplets_of_voice sp v) with (t_spanners (tuplets_from (TState sp []) v)).
    pose proof (vrun v n (TState sp []) I F A1) as P. cbv zeta in P. set (st := tuplets_from (TState sp []) v) in *. clearbody st. destruct P as (P1 & P2 & P3 & P4 & P5 & P6 & P7). cbn [t_spanners t_current] in P3, P4, P5, P6.
    assert (I' : tinv (fin n v) (TState (t_spanners st) [])).
    { destruct P1 as [B1 B2 B3 B4 B5]. split; cbn [t_spanners t_current]; auto; [intros x []|constructor|]. intros a b L1 L2. destruct (B5 a b L1 L2) as [[H _]|[H _]]; [left|right]; split; auto. }
    assert (EXT : exists new, t_spanners st = sp ++ new).
    { exists (skipn (length sp) (t_spanners st)). rewrite <- (firstn_skipn (length sp) (t_spanners st)) at 1. f_equal.
      apply (nth_ext _ _ [] []); [rewrite firstn_length; lia|]. intros a L. rewrite firstn_length in L. rewrite <- (P6 a) by (lia || intros []). rewrite <- (firstn_skipn (length sp) (t_spanners st)) at 2. rewrite app_nth1; [reflexivity|rewrite firstn_length; lia]. }
    destruct EXT as (new & EXT). destruct (IH (fin n v) (t_spanners st) I' P2 A2) as ((n' & R1) & R2 & new' & R3 & R4 & R5).
    split; [exists n'; exact R1|]. split; [exact R2|]. exists (new ++ new'). rewrite app_assoc, <- EXT. split; [exact R3|]. split.
    + intros s S. apply in_app_iff in S. destruct S as [S|S]; [|destruct (R4 s S) as (w & W1 & W2); exists w; split; [right; exact W1|exact W2]].
      exists v. split; [left; reflexivity|]. intros x X. destruct (In_nth _ _ [] S) as (a & L & E). destruct (P3 (length sp + a) x) as [Y|Y]; [|rewrite nth_overflow in Y by lia; destruct Y|exact Y].
      rewrite EXT, app_nth2 by lia. replace (length sp + a - length sp) with a by lia. rewrite E. exact X.
    + intros w i g [<-|W] J G T; [|eapply R5; eassumption]. destruct (P7 i g J G T) as (a & X). exists (nth a (t_spanners st) []). split; [|exact X]. apply in_app_iff. left. apply nth_In. destruct (PeanoNat.Nat.lt_ge_cases a (length (t_spanners st))) as [L|L]; [exact L|]. rewrite nth_overflow in X by exact L. destruct X.
Qed.
Lemma tinv_0 : tinv 0 (TState [] []).
Proof. split; cbn; try (intros; contradiction); try (intros; lia); [constructor|intros [|a] x []|intros [|a]; constructor]. Qed.
Lemma asc_sorted : forall l n, StronglySorted lt (map fst l) -> (forall e : nat * gnote, In e l -> n <= fst e) -> asc n l.
Proof.
  induction l as [|[i g] l IH]; intros n S B; [exact Logic.I|]. cbn [map fst] in S. inversion S as [|? ? S1 S2]; subst. cbn [asc]. split; [apply (B (i, g)); left; reflexivity|]. apply IH; [exact S1|]. intros e E. rewrite Forall_forall in S2. apply (S2 (fst e)). apply in_map. exact E.
Qed.

(** Whatever the marks: each tuplet that is found joins objects with tuplets, of a single voice of a measure, in their order;
    any two are nested or apart; and every object with a tuplet that is not only the end of one, is in one. *)
Theorem C90_tuplets : forall vs, StronglySorted lt (map fst (concat vs)) ->
  (forall s, In s (tuplets_of vs) -> s <> [] /\ StronglySorted lt s /\ exists v, In v vs /\ forall x, In x s -> exists g, In (x, g) v /\ g_general g = true /\ g_tuplets g <> []) /\
  (forall a b, a < b < length (tuplets_of vs) -> incl (nth b (tuplets_of vs) []) (nth a (tuplets_of vs) []) \/ forall x, In x (nth a (tuplets_of vs) []) -> In x (nth b (tuplets_of vs) []) -> False) /\
  (forall v i g, In v vs -> In (i, g) v -> g_general g = true -> (exists t, In t (g_tuplets g) /\ t <> TStop) -> exists s, In s (tuplets_of vs) /\ In i s).
Proof.
  intros vs S. assert (F0 : full (TState [] [])) by (intros a L; cbn in L; lia).
  destruct (all_run vs 0 [] tinv_0 F0 (asc_sorted _ 0 S (fun _ _ => PeanoNat.Nat.le_0_l _))) as ((n & I) & F & new & E & R1 & R2). fold (tuplets_of vs) in *. cbn [app] in E, R2. rewrite <- E in *. cj.
  - intros s X. destruct (In_nth _ _ [] X) as (a & L & EA). cj; [rewrite <- EA; apply F; exact L|rewrite <- EA; apply (ti_sorted _ _ I a)|exact (R1 s X)].
  - intros a b [L1 L2]. destruct (ti_nest _ _ I a b L1 L2) as [[H _]|[H _]]; auto.
  - exact R2.
Qed.
Print Assumptions C90_tuplets.

(** If the tuplets are marked as they should be, exactly the bracketed groups are found. *)
Theorem C90_groups_partial : forall vs gss, Forall2 (fun v gs => listed 0 v /\ exists ns, bal (word v) ns gs) vs gss -> tuplets_of vs = concat gss.
Proof.
  intros vs gss H. unfold tuplets_of. assert (G : forall sp, fold_left tuplets_of_voice vs sp = sp ++ concat gss); [|apply (G [])].
  induction H as [|v gs vs gss (L & ns & B) _ IH]; intros sp; cbn [fold_left concat]; [rewrite app_nil_r; reflexivity|].
  rewrite IH, app_assoc. f_equal. unfold tuplets_of_voice. rewrite listed_exec by exact L. rewrite (bal_exec _ _ _ B) by (intros x []). cbn [t_spanners]. rewrite addm_out by (intros x []). reflexivity.
Qed.
Print Assumptions C90_groups_partial.

(** Without marks two triplets become one. *)
Definition tup_note (ts : list tuplet_mark) : gnote := GNote true [] 0 true false ts.
Theorem C90_refuted : exists vs (three : list nat) (three' : list nat),
  (forall i, In i (three ++ three') -> exists v, In v vs /\ In (i, tup_note [TNone]) v) /\ length three = 3 /\ length three' = 3 /\
  tuplets_of vs = [three ++ three'].
Proof.
  exists [[(0, tup_note [TNone]); (1, tup_note [TNone]); (2, tup_note [TNone]); (3, tup_note [TNone]); (4, tup_note [TNone]); (5, tup_note [TNone])]], [0; 1; 2], [3; 4; 5].
  split; [|repeat split]. intros i I. eexists. split; [left; reflexivity|]. cbn in I. decompose [or] I; subst; cbn; tauto.
Qed.
Print Assumptions C90_refuted.

(** A triplet whose second note is a triplet itself, then a triplet of a rest, a grace note aside, and two notes. *)
Definition c90_ex : list (nat * gnote) :=
  [ (0, tup_note [TStart]); (1, tup_note [TNone; TStart]); (2, tup_note [TNone; TNone]); (3, tup_note [TNone; TStop]); (4, tup_note [TStop]);
    (5, GNote false [] 0 true false [TStart]); (6, GNote true [] 0 true true []); (7, tup_note [TNone]); (8, tup_note [TStop]); (9, tup_note []); (10, tup_note [TStartStop]) ].
Example C90_nonvacuous :
  StronglySorted lt (map fst (concat [c90_ex])) /\ listed 0 c90_ex /\ bal (word c90_ex) [0; 1; 2; 3; 4; 5; 7; 8; 10] [[0; 1; 2; 3; 4]; [1; 2; 3]; [5; 7; 8]; [10]] /\
  tuplets_of [c90_ex] = [[0; 1; 2; 3; 4]; [1; 2; 3]; [5; 7; 8]; [10]].
Proof.
  split; [repeat constructor|]. split; [cbv; repeat split; auto; lia|]. split; [|reflexivity].
  cbv.
  apply (bal_group [N 0; Open; N 1; N 2; N 3; Close; N 4] [0; 1; 2; 3; 4] [[1; 2; 3]] _ [5; 7; 8; 10] [[5; 7; 8]; [10]]).
  - apply bal_note. apply (bal_group [N 1; N 2; N 3] [1; 2; 3] [] [N 4] [4] []); repeat constructor.
  - apply (bal_group [N 5; N 7; N 8] [5; 7; 8] [] _ [10] [[10]]); [repeat constructor|]. apply (bal_group [N 10] [10] [] [] [] []); repeat constructor.
Qed.
