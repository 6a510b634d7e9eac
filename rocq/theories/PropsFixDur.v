(** Properties of the repair of durations before export to Humdrum: C157, C158. *)
From Coq Require Import List Arith ZArith Lia Bool.
From Verif Require Import FixDurModel FixDurProofs.
Import ListNotations.
Local Open Scope Z_scope.

(** *** Words of the statements *)
Definition all_voices (s : score) : list (list note) := flat_map (flat_map voices_of) s.
(** The time signature in force in a measure has bars of length [b]: it stands in the
    measure, or in the latest measure before that has one. *)
Definition in_force (p : part) (m : measure) (b : Z) : Prop :=
  m_ts m = Some b
  \/ m_ts m = None /\ exists a, In a p /\ m_ts a = Some b /\ m_off a <= m_off m
     /\ forall c, In c p -> m_ts c <> None -> m_off c <= m_off m -> c = a \/ m_off c < m_off a.
(** The voice is one rest that lasts a whole note. *)
Definition whole_rest (quarter : Z) (v : list note) : Prop := exists n, v = [n] /\ n_rest n = true /\ n_len n = 4 * quarter.
(** The same notes, each where it was or later, and where it was if none overlapped. *)
Definition same_notes (v v' : list note) : Prop :=
  map what (visible v') = map what (visible v)
  /\ Forall2 (fun n n' => n_off n <= n_off n') (visible v) (visible v')
  /\ (apart v -> starts (visible v') = starts (visible v)).
(** The measures of two scores, one by one, with the parts they are in. *)
Definition measurewise (R : part -> measure -> measure -> Prop) (s s' : score) : Prop :=
  Forall2 (fun p p' => Forall2 (R p) p p') s s'.
Definition voicewise (R : list note -> list note -> Prop) (m m' : measure) : Prop :=
  m_ts m' = m_ts m /\ R (m_notes m) (m_notes m') /\ Forall2 R (m_voices m) (m_voices m').

Section C157.
Context (quarter : Z) (components : Z -> list Z).
Local Notation fix_it := (fixup quarter components).

Lemma Forall2_map_r {A B C} (f : B -> C) (R : A -> C -> Prop) l l' : Forall2 (fun a b => R a (f b)) l l' -> Forall2 R l (map f l').
Proof. induction 1; constructor; assumption. Qed.
Lemma Forall2_self {A} (R : A -> A -> Prop) l : (forall x, R x x) -> Forall2 R l l.
Proof. intro H. induction l; constructor; auto. Qed.
Lemma Forall2_trans3 {A} (R S T : A -> A -> Prop) a b c : (forall x y z, R x y -> S y z -> T x z) -> Forall2 R a b -> Forall2 S b c -> Forall2 T a c.
Proof. intros H F. revert c. induction F; intros c G; inversion G; subst; constructor; eauto. Qed.
Lemma Forall2_in_r {A B} (R : A -> B -> Prop) a b y : Forall2 R a b -> In y b -> exists x, In x a /\ R x y.
Proof. induction 1 as [|x z a b H F IH]; [intros []|]. intros [<-|I]; [exists x; split; [left; reflexivity|exact H]|]. destruct (IH I) as (w & W & K). exists w. split; [right; exact W|exact K]. Qed.
Lemma Forall2_weaken {A B} (R S : A -> B -> Prop) a b : (forall x y, R x y -> S x y) -> Forall2 R a b -> Forall2 S a b.
Proof. intros H F. induction F; constructor; auto. Qed.

(** What becomes of a voice. *)
Definition spaced (y x : list note) : Prop := x = y \/ exists d, 0 < d /\ x = add_space d y.
Definition becomes (b : Z) (v v' : list note) : Prop :=
  exists x, spaced (slide None (shrink quarter b v)) x /\ v' = flat_map (split_hidden components) x.
Lemma on_voicewise f m : voicewise (fun v v' => v' = f v) m (on_voices f m).
Proof. unfold voicewise, on_voices. cbn. repeat split. apply Forall2_map_r, Forall2_self. reflexivity. Qed.
Lemma pad_voicewise x m : voicewise spaced m (pad x m).
Proof.
  unfold pad. destruct (measure_len m <? x) eqn:E.
  - apply Z.ltb_lt in E. destruct (m_voices m) as [|v vs] eqn:V.
    + split; [reflexivity|]. rewrite V. split; [right; exists (x - measure_len m); split; [lia|reflexivity]|constructor].
    + split; [reflexivity|]. split; [left; reflexivity|]. rewrite V. cbn [m_voices]. apply Forall2_map_r, Forall2_self. intro w. right. exists (x - measure_len m). split; [lia|reflexivity].
  - split; [reflexivity|]. split; [left; reflexivity|]. apply Forall2_self. intro w. left. reflexivity.
Qed.
Lemma pad_all_voicewise lens : forall p, Forall2 (voicewise spaced) p (pad_all lens p).
Proof.
  induction lens as [|x lens IH]; intros [|m p]; cbn [pad_all]; try constructor; try apply pad_voicewise; try apply IH.
  - split; [reflexivity|]. split; [left; reflexivity|]. apply Forall2_self. intro w. left. reflexivity.
  - apply Forall2_self. intro w. split; [reflexivity|]. split; [left; reflexivity|]. apply Forall2_self. intro u. left. reflexivity.
Qed.
Lemma replace_voicewise p : forall re m, Forall2 (voicewise eq) p (replace_measures re m p).
Proof.
  induction p as [|b p IH]; intros re m; [constructor|]. cbn [replace_measures]. constructor; [|apply IH].
  destruct (re || _); split; try reflexivity; (split; [reflexivity|apply Forall2_self; reflexivity]).
Qed.
Lemma step6_voicewise p : Forall2 (voicewise eq) p (step6 p).
Proof. destruct p as [|m p]; [constructor|]. cbn [step6]. constructor; [|apply replace_voicewise]. split; [reflexivity|]. split; [reflexivity|]. apply Forall2_self. reflexivity. Qed.
Lemma voicewise_trans (R S T : list note -> list note -> Prop) m m' m'' : (forall x y z, R x y -> S y z -> T x z) -> voicewise R m m' -> voicewise S m' m'' -> voicewise T m m''.
Proof.
  intros H (A & B & C) (A' & B' & C'). split; [congruence|]. split; [eapply H; eassumption|]. eapply Forall2_trans3; eassumption.
Qed.
Lemma voicewise_weaken (R S : list note -> list note -> Prop) m m' : (forall x y, R x y -> S x y) -> voicewise R m m' -> voicewise S m m'.
Proof. intros H (A & B & C). split; [exact A|]. split; [apply H, B|]. eapply Forall2_weaken; eassumption. Qed.

Lemma fixup_becomes s s' : fix_it s = Some s' -> measurewise (fun p m m' => voicewise (becomes (bar_of quarter p m)) m m') s s'.
Proof.
  unfold fixup. destruct (same_count s); [|discriminate]. intro E. injection E as <-. unfold step5. set (L := longest _). clearbody L. unfold measurewise.
  rewrite !map_map. apply Forall2_map_r, Forall2_self. intro p.
  assert (A : Forall2 (fun m m' => voicewise (fun v v' => v' = slide None (shrink quarter (bar_of quarter p m) v)) m m') p (step4 (step3 quarter p))).
  { unfold step4, step3. rewrite map_map. apply Forall2_map_r, Forall2_self. intro m.
    eapply voicewise_trans; [|exact (on_voicewise (shrink quarter (bar_of quarter p m)) m)|exact (on_voicewise (slide None) _)]. intros x y z -> ->. reflexivity. }
  pose proof (pad_all_voicewise L (step4 (step3 quarter p))) as B. pose proof (step6_voicewise (pad_all L (step4 (step3 quarter p)))) as C.
  assert (D : Forall2 (voicewise (fun v v' => v' = flat_map (split_hidden components) v)) (step6 (pad_all L (step4 (step3 quarter p)))) (step7 components (step6 (pad_all L (step4 (step3 quarter p))))))
    by (unfold step7; apply Forall2_map_r, Forall2_self; intro m; apply on_voicewise).
  assert (BCD : Forall2 (voicewise (fun y v' => exists x, spaced y x /\ v' = flat_map (split_hidden components) x)) (step4 (step3 quarter p)) (step7 components (step6 (pad_all L (step4 (step3 quarter p)))))).
  { eapply Forall2_trans3; [|exact B|eapply Forall2_trans3; [|exact C|exact D]].
    - intros m m' m'' H H'. eapply voicewise_trans; [|exact H|exact H']. intros x y z X Y. exists y. split; [exact X|exact Y].
    - intros m m' m'' H H'. eapply voicewise_trans; [|exact H|exact H']. intros x y z -> Y. exact Y. }
  eapply Forall2_trans3; [|exact A|exact BCD]. intros m m' m'' H G. eapply voicewise_trans; [|exact H|exact G]. intros x y z -> (w & W & W'). exists w. split; assumption.
Qed.

Lemma lengths_slide l p : lengths_ok l -> lengths_ok (slide p l).
Proof.
  unfold lengths_ok. intro F. revert p. induction F as [|n l N F IH]; intro p; [constructor|]. cbn [slide]. constructor; [|apply IH]. destruct p as [p|]; [|exact N]. destruct (_ <? _); exact N.
Qed.
Lemma lengths_shrink b l : 0 <= b -> lengths_ok l -> lengths_ok (shrink quarter b l).
Proof. intros B F. unfold shrink. destruct l as [|n [|m l]]; try exact F. destruct (_ && _); [|exact F]. constructor; [exact B|constructor]. Qed.
Lemma lengths_spaced y x : spaced y x -> lengths_ok y -> lengths_ok x.
Proof. intros [->|(d & D & ->)] F; [exact F|]. unfold add_space. apply Forall_app. split; [exact F|]. constructor; [cbn; lia|constructor]. Qed.
Lemma visible_slide l p : map what (visible (slide p l)) = map what (visible l) /\ Forall2 (fun n n' => n_off n <= n_off n') (visible l) (visible (slide p l)).
Proof.
  unfold visible. revert p. induction l as [|n l IH]; intro p; [split; [reflexivity|constructor]|]. cbn [slide filter].
  set (n' := match p with None => n | Some p => if n_off n - n_off p <? n_len p then move (n_off p + n_len p) n else n end).
  assert (H : n_hidden n' = n_hidden n /\ what n' = what n /\ n_off n <= n_off n').
  { unfold n'. destruct p as [p|]; [|repeat split; lia]. destruct (n_off n - n_off p <? n_len p) eqn:E; [apply Z.ltb_lt in E|]; repeat split; cbn; lia. }
  destruct H as (H1 & H2 & H3). rewrite H1. destruct (IH (Some n')) as (A & B). destruct (n_hidden n); cbn [negb]; [split; assumption|].
  split; [cbn [map]; rewrite A, H2; reflexivity|constructor; assumption].
Qed.
Lemma visible_spaced y x : spaced y x -> visible x = visible y.
Proof. intros [->|(d & _ & ->)]; [reflexivity|]. unfold visible, add_space. rewrite filter_app. cbn. apply app_nil_r. Qed.
Lemma same_slide v x : spaced (slide None v) x -> same_notes v (flat_map (split_hidden components) x).
Proof.
  intro S. unfold same_notes. rewrite split_visible, (visible_spaced _ _ S). destruct (visible_slide v None) as (A & B). split; [exact A|]. split; [exact B|].
  intro P. rewrite slide_id by (try exact P; destruct v; exact Logic.I). reflexivity.
Qed.

Lemma active_none at_ l : active at_ l = None -> forall x, In x l -> at_ < fst x.
Proof.
  unfold active. assert (G : forall l b, fold_left (fun (best : option (Z * Z)) (x : Z * Z) => if fst x <=? at_ then match best with None => Some x | Some y => if fst y <=? fst x then Some x else best end else best) l b = None -> b = None /\ forall x, In x l -> at_ < fst x).
  { clear. induction l as [|x l IH]; intros b H; [split; [exact H|intros x []]|]. cbn [fold_left] in H. apply IH in H. destruct H as (H & K). destruct (fst x <=? at_) eqn:E.
    - destruct b as [y|]; [destruct (fst y <=? fst x); discriminate|discriminate].
    - split; [exact H|]. intros z [<-|Z]; [apply Z.leb_gt in E; lia|exact (K z Z)]. }
  intro H. exact (proj2 (G l None H)).
Qed.
Lemma active_some at_ l a : active at_ l = Some a -> In a l /\ fst a <= at_ /\ forall x, In x l -> fst x <= at_ -> fst x <= fst a.
Proof.
  unfold active. assert (G : forall l b, fold_left (fun (best : option (Z * Z)) (x : Z * Z) => if fst x <=? at_ then match best with None => Some x | Some y => if fst y <=? fst x then Some x else best end else best) l b = Some a ->
     (match b with Some y => fst y <= at_ | None => True end) -> (In a l \/ b = Some a) /\ fst a <= at_ /\ (forall x, In x l -> fst x <= at_ -> fst x <= fst a) /\ match b with Some y => fst y <= fst a | None => True end).
  { clear. induction l as [|x l IH]; intros b H B.
    - cbn in H. subst b. repeat split; [right; reflexivity|exact B|intros x []|lia].
    - cbn [fold_left] in H. apply IH in H.
      + destruct H as (H1 & H2 & H3 & H4). destruct (fst x <=? at_) eqn:E.
        * apply Z.leb_le in E. destruct b as [y|].
          -- destruct (fst y <=? fst x) eqn:Y.
             ++ apply Z.leb_le in Y. repeat split; [destruct H1 as [H1|H1]; [left; right; exact H1|injection H1 as <-; left; left; reflexivity]|exact H2|intros z [<-|Z] L; [exact H4|exact (H3 z Z L)]|lia].
             ++ apply Z.leb_gt in Y. repeat split; [destruct H1 as [H1|H1]; [left; right; exact H1|right; exact H1]|exact H2|intros z [<-|Z] L; [lia|exact (H3 z Z L)]|exact H4].
          -- repeat split; [destruct H1 as [H1|H1]; [left; right; exact H1|injection H1 as <-; left; left; reflexivity]|exact H2|intros z [<-|Z] L; [exact H4|exact (H3 z Z L)]].
        * apply Z.leb_gt in E. repeat split; [destruct H1 as [H1|H1]; [left; right; exact H1|right; exact H1]|exact H2|intros z [<-|Z] L; [lia|exact (H3 z Z L)]|exact H4].
      + destruct (fst x <=? at_) eqn:E; [|exact B]. apply Z.leb_le in E. destruct b as [y|]; [destruct (fst y <=? fst x); [exact E|exact B]|exact E]. }
  intro H. destruct (G l None H Logic.I) as ([I|I] & A & B & _); [|discriminate]. repeat split; assumption.
Qed.
Lemma bar_in_force p m b : in_force p m b -> bar_of quarter p m = b.
Proof.
  unfold bar_of. intros [->|(-> & a & I & T & O & U)]; [reflexivity|]. assert (A : In (m_off a, b) (meters p)) by (unfold meters; apply in_flat_map; exists a; split; [exact I|rewrite T; left; reflexivity]).
  destruct (active (m_off m) (meters p)) as [(o, b')|] eqn:E.
  - apply active_some in E. destruct E as (E1 & E2 & E3). cbn [fst] in *. specialize (E3 _ A O). cbn [fst] in E3. unfold meters in E1. apply in_flat_map in E1. destruct E1 as (c & C & E1). destruct (m_ts c) as [bc|] eqn:Tc; [|destruct E1]. destruct E1 as [E1|[]]. injection E1 as <- <-.
    destruct (U c C) as [->|K]; [congruence|exact E2| |lia]. congruence.
  - apply (active_none _ _ E) in A. cbn in A. lia.
Qed.
Lemma bar_none p m : (forall b, ~ in_force p m b) -> (forall c d, In c p -> In d p -> m_ts c <> None -> m_off c = m_off d -> c = d) -> bar_of quarter p m = 4 * quarter.
Proof.
  intros N D. unfold bar_of. destruct (m_ts m) as [b|] eqn:T; [exfalso; apply (N b); left; exact T|]. destruct (active (m_off m) (meters p)) as [(o, b)|] eqn:E; [|reflexivity]. exfalso. apply active_some in E. destruct E as (E1 & E2 & E3). cbn [fst] in *.
  unfold meters in E1. apply in_flat_map in E1. destruct E1 as (a & A & E1). destruct (m_ts a) as [ba|] eqn:Ta; [|destruct E1]. destruct E1 as [E1|[]]. injection E1 as <- <-.
  apply (N ba). right. split; [exact T|]. exists a. repeat split; try assumption. intros c C Tc O. destruct (m_ts c) as [bc|] eqn:Tcb; [|congruence].
  assert (L : m_off c <= m_off a). { apply (E3 (m_off c, bc)); [|exact O]. unfold meters. apply in_flat_map. exists c. split; [exact C|rewrite Tcb; left; reflexivity]. }
  destruct (Z.eq_dec (m_off c) (m_off a)) as [Q|Q]; [left; apply D; try assumption; congruence|right; lia].
Qed.

(** C157: after the repair no notes of a voice overlap. *)
Theorem C157_no_overlap : forall s s', components_ok components -> fix_it s = Some s' ->
  (forall p m b, In p s -> In m p -> m_ts m = Some b -> 0 <= b) -> 0 <= quarter -> (forall v, In v (all_voices s) -> lengths_ok v) ->
  forall v', In v' (all_voices s') -> apart v'.
Proof.
  intros s s' CO F BO Q LO v' I. apply fixup_becomes in F.
  unfold all_voices in I. apply in_flat_map in I. destruct I as (p' & P' & I). apply in_flat_map in I. destruct I as (m' & M' & I).
  destruct (Forall2_in_r _ _ _ _ F P') as (p & P & Fp). destruct (Forall2_in_r _ _ _ _ Fp M') as (m & M & _ & R1 & R2).
  assert (G : exists v, In v (voices_of m) /\ becomes (bar_of quarter p m) v v').
  { destruct I as [<-|I]; [exists (m_notes m); split; [left; reflexivity|exact R1]|]. destruct (Forall2_in_r _ _ _ _ R2 I) as (v & V & K). exists v. split; [right; exact V|exact K]. }
  destruct G as (v & V & x & X & ->).
  assert (L : lengths_ok v). { apply LO. unfold all_voices. apply in_flat_map. exists p. split; [exact P|]. apply in_flat_map. exists m. split; [exact M|exact V]. }
  assert (B : 0 <= bar_of quarter p m).
  { unfold bar_of. destruct (m_ts m) as [b|] eqn:T; [exact (BO p m b P M T)|]. destruct (active (m_off m) (meters p)) as [(o, b)|] eqn:A; [|lia]. apply active_some in A. destruct A as (A & _).
    unfold meters in A. apply in_flat_map in A. destruct A as (c & C & A). destruct (m_ts c) as [bc|] eqn:Tc; [|destruct A]. destruct A as [A|[]]. injection A as _ <-. exact (BO p c bc P C Tc). }
  apply split_apart; [exact CO| |].
  - apply (lengths_spaced _ _ X), lengths_slide, lengths_shrink; assumption.
  - destruct X as [->|(d & _ & ->)]; [apply slide_apart|apply apart_space, slide_apart].
Qed.

(** Every note stays in its voice, with its length, in the order there was, none earlier
    than it was, and those of a voice without overlaps where they were - but for a rest of a
    whole note that is alone in its voice, in a shorter bar. *)
Theorem C157_same_notes : forall s s', fix_it s = Some s' ->
  measurewise (fun p m m' => voicewise (fun v v' => forall b, in_force p m b -> ~ (whole_rest quarter v /\ b < 4 * quarter) -> same_notes v v') m m') s s'.
Proof.
  intros s s' F. apply fixup_becomes in F. eapply Forall2_weaken; [|exact F]. intros p p' Fp. eapply Forall2_weaken; [|exact Fp]. intros m m' Fm. eapply voicewise_weaken; [|exact Fm].
  intros v v' (x & X & ->) b IF N. rewrite (bar_in_force _ _ _ IF) in X.
  assert (E : shrink quarter b v = v).
  { unfold shrink. destruct v as [|n [|n2 v]]; try reflexivity. destruct (n_rest n) eqn:R; [|reflexivity]. destruct (n_len n =? 4 * quarter) eqn:L; [|reflexivity]. destruct (b <? n_len n) eqn:B; [|reflexivity].
    exfalso. apply Z.eqb_eq in L. apply Z.ltb_lt in B. apply N. split; [exists n; repeat split; assumption|lia]. }
  rewrite E in X. apply same_slide. exact X.
Qed.
(** That rest lasts as long as the bar, and looks as it did. *)
Theorem C157_whole_rest : forall s s', fix_it s = Some s' ->
  measurewise (fun p m m' => voicewise (fun v v' => forall b n, in_force p m b -> v = [n] -> n_rest n = true -> n_len n = 4 * quarter -> b < 4 * quarter -> n_hidden n = false -> n_looks n = None ->
    exists n', visible v' = [n'] /\ n_id n' = n_id n /\ n_off n' = n_off n /\ n_len n' = b /\ n_rest n' = true /\ n_looks n' = Some (4 * quarter)) m m') s s'.
Proof.
  intros s s' F. apply fixup_becomes in F. eapply Forall2_weaken; [|exact F]. intros p p' Fp. eapply Forall2_weaken; [|exact Fp]. intros m m' Fm. eapply voicewise_weaken; [|exact Fm].
  intros v v' (x & X & ->) b n IF -> R L B H K. rewrite (bar_in_force _ _ _ IF) in X. rewrite split_visible, (visible_spaced _ _ X).
  assert (E : shrink quarter b [n] = [Note (n_id n) (n_off n) b true false (Some (4 * quarter))]).
  { unfold shrink. rewrite R, L, H, K, Z.eqb_refl. apply Z.ltb_lt in B. rewrite B. reflexivity. }
  rewrite E. cbn. eexists. split; [reflexivity|]. repeat split.
Qed.
(** Notes are moved as little as can be: the starts of any other arrangement of the same
    notes without overlaps, none earlier than it was, are none of them earlier. *)
Theorem C157_earliest : forall v o, Forall2 (fun x n => n_off n <= x) o v -> apart (placed o v) -> Forall2 Z.le (starts (slide None v)) o.
Proof.
  intros v o F A. assert (G := slide_least v None o F Logic.I A). clear - G. unfold starts. induction G as [|x n o l H G IH]; cbn [map]; constructor; assumption.
Qed.


(** *** C158 *)
(** Parts with equally many measures. *)
Definition equal_parts (s : score) : Prop := exists k, Forall (fun p : part => length p = k) s.
Lemma count_ok s : equal_parts s -> same_count s = true.
Proof. intros (k & F). unfold same_count. destruct F as [|p s P F]; [reflexivity|]. apply forallb_forall. intros q I. rewrite Forall_forall in F. rewrite (F q I), P. apply Nat.eqb_refl. Qed.
Lemma plain_on f m : f [] = [] -> plain m -> plain (on_voices f m).
Proof. intros E [P|P]; [left|right]; unfold on_voices; cbn; rewrite P; [reflexivity|exact E]. Qed.
Lemma step7_len p : components_ok components -> Forall (fun m => Forall lengths_ok (voices_of m)) p -> map measure_len (step7 components p) = map measure_len p.
Proof.
  intros CO F. unfold step7. rewrite map_map. apply map_ext_in. intros m M. rewrite Forall_forall in F. specialize (F m M). inversion F as [|? ? F1 F2].
  unfold measure_len, on_voices. cbn [m_voices m_notes]. rewrite split_highest by assumption. clear - F2 CO. induction F2 as [|v vs V F2 IH]; [reflexivity|]. cbn [map fold_right]. rewrite split_highest by assumption. rewrite IH. reflexivity.
Qed.
Lemma step7_off p : map m_off (step7 components p) = map m_off p.
Proof. unfold step7. rewrite map_map. reflexivity. Qed.
Lemma abut_by p q : map m_off p = map m_off q -> map measure_len p = map measure_len q -> abut p -> abut q.
Proof.
  revert q. induction p as [|a p IH]; intros [|b q] O L A; try discriminate; [exact A|]. cbn [map] in O, L. injection O as O1 O2. injection L as L1 L2. destruct p as [|a' p], q as [|b' q]; try discriminate; [exact Logic.I|].
  destruct A as (A1 & A2). split; [|exact (IH (b' :: q) O2 L2 A2)]. cbn [map] in O2. injection O2 as O2 _. rewrite <- O2, <- O1, <- L1. exact A1.
Qed.
Definition good (p : part) : Prop := Forall (fun m => plain m /\ Forall lengths_ok (voices_of m)) p.
Lemma bar_nonneg p m : 0 <= quarter -> (forall m b, In m p -> m_ts m = Some b -> 0 <= b) -> In m p -> 0 <= bar_of quarter p m.
Proof.
  intros Q B M. unfold bar_of. destruct (m_ts m) as [b|] eqn:T; [exact (B m b M T)|]. destruct (active (m_off m) (meters p)) as [(o, b)|] eqn:A; [|lia]. apply active_some in A. destruct A as (A & _).
  unfold meters in A. apply in_flat_map in A. destruct A as (c & C & A). destruct (m_ts c) as [bc|] eqn:Tc; [|destruct A]. destruct A as [A|[]]. injection A as _ <-. exact (B c bc C Tc).
Qed.
Lemma good_on f m : f [] = [] -> (forall v, lengths_ok v -> lengths_ok (f v)) -> plain m /\ Forall lengths_ok (voices_of m) -> plain (on_voices f m) /\ Forall lengths_ok (voices_of (on_voices f m)).
Proof.
  intros E H (P & F). split; [apply plain_on; assumption|]. unfold voices_of, on_voices in *. cbn [m_notes m_voices]. inversion F as [|? ? F1 F2]. constructor; [apply H, F1|]. clear - H F2. induction F2; cbn [map]; constructor; auto.
Qed.
Lemma good_4 p : 0 <= quarter -> (forall m b, In m p -> m_ts m = Some b -> 0 <= b) -> good p -> good (step4 (step3 quarter p)).
Proof.
  intros Q B G. unfold good, step4, step3. rewrite map_map. apply Forall_forall. intros m' M'. apply in_map_iff in M'. destruct M' as (m & <- & M). unfold good in G. rewrite Forall_forall in G.
  apply good_on; [reflexivity|intros v V; apply lengths_slide, V|]. apply good_on; [reflexivity|intros v V; apply lengths_shrink; [apply bar_nonneg; assumption|exact V]|]. apply G, M.
Qed.
Lemma voicewise_lengths (R : list note -> list note -> Prop) m m' : (forall v v', R v v' -> lengths_ok v -> lengths_ok v') -> voicewise R m m' -> Forall lengths_ok (voices_of m) -> Forall lengths_ok (voices_of m').
Proof.
  intros H (_ & A & B) F. inversion F as [|? ? F1 F2]. unfold voices_of. constructor; [exact (H _ _ A F1)|]. clear - H B F2. induction B as [|v v' l l' V B IH]; [constructor|]. inversion F2 as [|? ? G1 G2]. constructor; [exact (H _ _ V G1)|exact (IH G2)].
Qed.
Lemma all_lengths (R : list note -> list note -> Prop) p p' : (forall v v', R v v' -> lengths_ok v -> lengths_ok v') -> Forall2 (voicewise R) p p' ->
  Forall (fun m => Forall lengths_ok (voices_of m)) p -> Forall (fun m => Forall lengths_ok (voices_of m)) p'.
Proof. intros H F. induction F as [|m m' p p' A F IH]; intro G; [constructor|]. inversion G as [|? ? G1 G2]. constructor; [exact (voicewise_lengths R m m' H A G1)|exact (IH G2)]. Qed.

(** C158: after the repair the measures of all parts begin and end together, and each begins
    where the one before ends. *)
Theorem C158_together : forall s, components_ok components -> 0 <= quarter -> equal_parts s ->
  Forall good s -> (forall p m b, In p s -> In m p -> m_ts m = Some b -> 0 <= b) ->
  exists s', fix_it s = Some s' /\ length s' = length s
    /\ (forall p, In p s' -> abut p)
    /\ (forall p q, In p s' -> In q s' -> map measure_len p = map measure_len q)
    /\ ((forall p q a b, In (a :: p) s -> In (b :: q) s -> m_off a = m_off b) -> forall p q, In p s' -> In q s' -> map m_off p = map m_off q).
Proof.
  intros s CO Q EP G B. unfold fixup. rewrite (count_ok s EP). eexists. split; [reflexivity|]. unfold step5. rewrite !map_map. split; [apply map_length|].
  set (s4 := map (fun x => step4 (step3 quarter x)) s). set (L := longest s4).
  destruct EP as (k & EP).
  assert (K4 : Forall (fun p : part => length p = k) s4). { unfold s4. apply Forall_forall. intros p' P'. apply in_map_iff in P'. destruct P' as (p & <- & P). unfold step4, step3. rewrite !map_length. rewrite Forall_forall in EP. apply EP, P. }
  assert (G4 : Forall good s4). { unfold s4. apply Forall_forall. intros p' P'. apply in_map_iff in P'. destruct P' as (p & <- & P). apply good_4; [exact Q|intros m b M; apply (B p m b P M)|]. rewrite Forall_forall in G. apply G, P. }
  pose proof (longest_above s4 k K4) as LA. pose proof (longest_length s4 k K4) as LL. fold L in LA, LL.
  assert (X : forall p, In p s -> let p6 := step6 (pad_all L (step4 (step3 quarter p))) in
     map measure_len (step7 components p6) = L /\ map m_off (step7 components p6) = map m_off p6 /\ map measure_len p6 = L /\ abut p6).
  { intros p P. cbv zeta. assert (P4 : In (step4 (step3 quarter p)) s4) by (unfold s4; apply in_map_iff; exists p; split; [reflexivity|exact P]).
    set (p4 := step4 (step3 quarter p)) in *. rewrite Forall_forall in K4, G4, LA. specialize (K4 _ P4). specialize (G4 _ P4). specialize (LA _ P4).
    assert (LK : length L = k) by (rewrite LL; destruct s4; [destruct P4|reflexivity]).
    assert (E5 : map measure_len (pad_all L p4) = L). { apply pad_all_len; [|congruence|exact LA]. eapply Forall_impl; [|exact G4]. intros m (Pm & _). exact Pm. }
    assert (E6 : map measure_len (step6 (pad_all L p4)) = L) by (rewrite step6_len; exact E5).
    assert (V4 : Forall (fun m => Forall lengths_ok (voices_of m)) p4) by (eapply Forall_impl; [|exact G4]; intros m (_ & Vm); exact Vm).
    assert (V5 := all_lengths spaced _ _ lengths_spaced (pad_all_voicewise L p4) V4).
    assert (V6 : Forall (fun m => Forall lengths_ok (voices_of m)) (step6 (pad_all L p4))). { apply (all_lengths eq (pad_all L p4)); [intros v v' <- W; exact W|apply step6_voicewise|exact V5]. }
    split; [rewrite step7_len by assumption; exact E6|]. split; [apply step7_off|]. split; [exact E6|apply step6_abut]. }
  split; [|split].
  - intros p' P'. apply in_map_iff in P'. destruct P' as (p & <- & P). destruct (X p P) as (X1 & X2 & X3 & X4). eapply abut_by; [symmetry; exact X2|rewrite X1; exact X3|exact X4].
  - intros p' q' P' Q'. apply in_map_iff in P', Q'. destruct P' as (p & <- & P), Q' as (q & <- & Qq). destruct (X p P) as (X1 & _), (X q Qq) as (Y1 & _). congruence.
  - intros O p' q' P' Q'. apply in_map_iff in P', Q'. destruct P' as (p & <- & P), Q' as (q & <- & Qq). destruct (X p P) as (_ & X2 & X3 & X4), (X q Qq) as (_ & Y2 & Y3 & Y4). rewrite X2, Y2.
    apply abut_offsets; [exact X4|exact Y4|congruence|].
    assert (Hd : forall r, In r s -> match step6 (pad_all L (step4 (step3 quarter r))), r with a :: _, b :: _ => m_off a = m_off b | [], [] => True | _, _ => False end).
    { intros r R. destruct r as [|b r]; [destruct L; exact Logic.I|]. cbn [step3 step4 map]. destruct L as [|x L']; [reflexivity|]. cbn [pad_all step6]. unfold pad. destruct (_ <? _); [|reflexivity]. destruct (m_voices _); reflexivity. }
    pose proof (Hd p P) as HP. pose proof (Hd q Qq) as HQ. destruct (step6 (pad_all L (step4 (step3 quarter p)))); [exact Logic.I|]. destruct (step6 (pad_all L (step4 (step3 quarter q)))); [exact Logic.I|].
    destruct p as [|a p]; [destruct HP|]. destruct q as [|b q]; [destruct HQ|]. rewrite HP, HQ. eapply O; [exact P|exact Qq].
Qed.

(** A score with nothing to repair is left alone. *)
Definition fine_voice (p : part) (m : measure) (v : list note) : Prop :=
  apart v /\ (whole_rest quarter v -> exists b, in_force p m b /\ 4 * quarter <= b)
  /\ forall n, In n v -> n_rest n = true -> n_hidden n = true -> (length (components (n_len n)) <= 1)%nat.
Definition fine (s : score) : Prop :=
  (forall p m v, In p s -> In m p -> In v (voices_of m) -> fine_voice p m v)
  /\ (forall p, In p s -> abut p) /\ (forall p q, In p s -> In q s -> map measure_len p = map measure_len q).
Lemma shrink_fine p m v : fine_voice p m v -> shrink quarter (bar_of quarter p m) v = v.
Proof.
  intros (_ & W & _). unfold shrink. destruct v as [|n [|n2 v]]; try reflexivity. destruct (n_rest n) eqn:R; [|reflexivity]. destruct (n_len n =? 4 * quarter) eqn:L; [|reflexivity]. apply Z.eqb_eq in L.
  destruct W as (b & IF & B); [exists n; repeat split; assumption|]. rewrite (bar_in_force _ _ _ IF). destruct (b <? n_len n) eqn:E; [apply Z.ltb_lt in E; lia|reflexivity].
Qed.
Lemma on_voices_id f m : (forall v, In v (voices_of m) -> f v = v) -> on_voices f m = m.
Proof.
  intro H. destruct m as [o ts ns vs]. unfold on_voices. cbn in *. f_equal; [apply H; left; reflexivity|]. rewrite <- (map_id vs) at 2. apply map_ext_in. intros v V. apply H. right. exact V.
Qed.
Lemma zip_max_same l : zip_max l l = l.
Proof. induction l as [|x l IH]; [reflexivity|]. cbn. rewrite IH, Z.max_id. reflexivity. Qed.
Lemma zip_max_nil l : zip_max l [] = l.
Proof. destruct l; reflexivity. Qed.
Lemma longest_same s l : Forall (fun p => map measure_len p = l) s -> s <> [] -> longest s = l.
Proof.
  induction 1 as [|p s P F IH]; intro N; [congruence|]. cbn [longest fold_right]. fold (longest s). rewrite P. destruct s as [|q s]; [apply zip_max_nil|]. rewrite IH by discriminate. apply zip_max_same.
Qed.
Lemma pad_all_same p : pad_all (map measure_len p) p = p.
Proof. induction p as [|m p IH]; [reflexivity|]. cbn [map pad_all]. rewrite IH. unfold pad. rewrite Z.ltb_irrefl. reflexivity. Qed.
Lemma replace_same p : forall m, abut (m :: p) -> replace_measures false m p = p.
Proof.
  induction p as [|b p IH]; intros m A; [reflexivity|]. destruct A as (A1 & A2). cbn [replace_measures]. rewrite A1, Z.eqb_refl. cbn [orb negb]. f_equal. apply IH. exact A2.
Qed.
Theorem C158_fine_unchanged : forall s, fine s -> fix_it s = Some s.
Proof.
  intros s (V & A & L). unfold fixup.
  assert (SC : same_count s = true).
  { apply count_ok. destruct s as [|p s]; [exists O; constructor|]. exists (length p). apply Forall_forall. intros q Q. rewrite <- (map_length measure_len q), <- (map_length measure_len p). f_equal. apply L; [exact Q|left; reflexivity]. }
  rewrite SC. f_equal.
  assert (E3 : map (step3 quarter) s = s).
  { rewrite <- (map_id s) at 2. apply map_ext_in. intros p P. unfold step3. rewrite <- (map_id p) at 2. apply map_ext_in. intros m M. apply on_voices_id. intros v Vi. apply shrink_fine. exact (V p m v P M Vi). }
  assert (E4 : map step4 s = s).
  { rewrite <- (map_id s) at 2. apply map_ext_in. intros p P. unfold step4. rewrite <- (map_id p) at 2. apply map_ext_in. intros m M. apply on_voices_id. intros v Vi. apply slide_id; [destruct v; exact Logic.I|]. apply (V p m v P M Vi). }
  assert (E5 : step5 s = s).
  { unfold step5. transitivity (map (fun x => x) s); [|apply map_id]. apply map_ext_in. intros p P. rewrite (longest_same s (map measure_len p)); [apply pad_all_same| |intros ->; destruct P]. apply Forall_forall. intros q Q. apply L; assumption. }
  assert (E6 : map step6 s = s).
  { rewrite <- (map_id s) at 2. apply map_ext_in. intros p P. unfold step6. destruct p as [|m p]; [reflexivity|]. rewrite replace_same by (apply A; exact P). reflexivity. }
  assert (E7 : map (step7 components) s = s).
  { rewrite <- (map_id s) at 2. apply map_ext_in. intros p P. unfold step7. rewrite <- (map_id p) at 2. apply map_ext_in. intros m M. apply on_voices_id. intros v Vi. destruct (V p m v P M Vi) as (_ & _ & S). clear - S.
    induction v as [|n v IH]; [reflexivity|]. cbn [flat_map]. rewrite IH by (intros x X; apply S; right; exact X). unfold split_hidden. destruct (n_rest n) eqn:R; [|reflexivity]. destruct (n_hidden n) eqn:H; [|reflexivity]. cbn [andb].
    specialize (S n (or_introl eq_refl) R H). destruct (components (n_len n)) as [|a [|b r]]; try reflexivity. cbn in S. lia. }
  rewrite E3, E4, E5, E6, E7. reflexivity.
Qed.
End C157.
Print Assumptions C157_no_overlap.
Print Assumptions C157_same_notes.
Print Assumptions C157_whole_rest.
Print Assumptions C157_earliest.
Print Assumptions C158_together.
Print Assumptions C158_fine_unchanged.

(** *** Cases: 4 ticks in a quarter note; lengths of 5 ticks have two components. *)
Definition comps (d : Z) : list Z := if d =? 5 then [4; 1] else [d].
Lemma comps_ok : components_ok comps.
Proof. intros d D. unfold comps. destruct (d =? 5) eqn:E; [apply Z.eqb_eq in E; subst; split; [reflexivity|repeat constructor; lia]|split; [cbn; lia|repeat constructor; exact D]]. Qed.
Definition nt (i : nat) (o d : Z) : note := Note (Some i) o d false false None.
Definition rs (i : nat) (o d : Z) : note := Note (Some i) o d true false None.
Definition fixed (s : score) : option score := fixup 4 comps s.
Definition sc1 : score :=
  [ [Measure 0 (Some 12) [nt 0 0 4; nt 1 2 4; nt 2 8 8] []; Measure 16 None [rs 3 0 16] []];
    [Measure 0 (Some 12) [] [[nt 4 0 4; nt 5 4 4; nt 6 8 3]; [nt 7 0 4]]; Measure 12 None [nt 8 0 8; nt 9 8 4] []] ].
Example C157_nonvacuous :
  fixed sc1 = Some
  [ [Measure 0 (Some 12) [nt 0 0 4; nt 1 4 4; nt 2 8 8] []; Measure 16 None [Note (Some 3%nat) 0 12 true false (Some 16)] []];
    [Measure 0 (Some 12) [] [[nt 4 0 4; nt 5 4 4; nt 6 8 3; Note None 11 4 true true None; Note None 15 1 true true None]; [nt 7 0 4; Note None 4 4 true true None; Note None 8 1 true true None]];
     Measure 16 None [nt 8 0 8; nt 9 8 4] []] ].
Proof. vm_compute. reflexivity. Qed.
Ltac good_tac := unfold good, lengths_ok; repeat (apply Forall_cons || apply Forall_nil); repeat split; first [left; reflexivity|right; reflexivity|repeat (apply Forall_cons || apply Forall_nil); cbn; lia].
Example C158_nonvacuous : equal_parts sc1 /\ Forall good sc1 /\ components_ok comps.
Proof.
  split; [exists 2%nat; repeat constructor|]. split; [|exact comps_ok]. unfold sc1. good_tac.
Qed.
Definition fine_ex : score := [[Measure 0 (Some 12) [nt 0 0 12] []]; [Measure 0 None [rs 1 0 12] []]].
Example C158_fine_nonvacuous : fine 4 comps fine_ex.
Proof.
  split; [|split].
  - intros p m v P M V. destruct P as [<-|[<-|[]]]; destruct M as [<-|[]]; destruct V as [<-|[]]; (split; [exact Logic.I|split; [intros (n & E & R & L); injection E as <-; discriminate|intros n [<-|[]] R H; discriminate]]).
  - intros p P. destruct P as [<-|[<-|[]]]; exact Logic.I.
  - intros p q P Q. destruct P as [<-|[<-|[]]]; destruct Q as [<-|[<-|[]]]; reflexivity.
Qed.

(** Parts with different numbers of measures: the repair raises, where it should add measures. *)
Theorem C158_counts_refuted : exists s, (forall p m v, In p s -> In m p -> In v (voices_of m) -> apart v /\ lengths_ok v) /\ fixed s = None.
Proof.
  exists [[Measure 0 (Some 16) [nt 0 0 16] []; Measure 16 None [nt 1 0 16] []]; [Measure 0 (Some 16) [nt 2 0 16] []]]. split; [|vm_compute; reflexivity].
  intros p m v P M V. destruct P as [<-|[<-|[]]]; [destruct M as [<-|[<-|[]]]|destruct M as [<-|[]]]; destruct V as [<-|[]]; (split; [exact Logic.I|repeat constructor; cbn; lia]).
Qed.
Print Assumptions C158_counts_refuted.
(** Voices that are shorter than their measure are not filled up, even if space is added. *)
Theorem C158_short_voice_refuted : exists s s' p m v, equal_parts s /\ Forall good s /\ fixed s = Some s' /\ In p s' /\ In m p /\ In v (m_voices m) /\ highest v < measure_len m.
Proof.
  exists sc1. eexists. eexists. eexists. eexists. split; [apply C158_nonvacuous|]. split; [apply C158_nonvacuous|]. split; [vm_compute; reflexivity|].
  split; [right; left; reflexivity|]. split; [left; reflexivity|]. split; [right; left; reflexivity|]. vm_compute. reflexivity.
Qed.
Print Assumptions C158_short_voice_refuted.
(** Repaired scores are not always left alone: space of a whole note in an empty measure, added
    because the bars of another part are overfull, is itself taken for a rest that is too long,
    shortened, and filled up with another. *)
Theorem C158_again_refuted : exists s s' s'', equal_parts s /\ Forall good s /\ fixed s = Some s' /\ fixed s' = Some s'' /\ s'' <> s'.
Proof.
  exists [[Measure 0 (Some 12) [nt 0 0 16] []]; [Measure 0 (Some 12) [] []]]. eexists. eexists. split; [exists 1%nat; repeat constructor|]. split; [good_tac|].
  split; [vm_compute; reflexivity|]. split; [vm_compute; reflexivity|]. discriminate.
Qed.
Print Assumptions C158_again_refuted.
(** A rest of a whole note beside a hidden rest keeps its length in a shorter bar. *)
Theorem C157_beside_refuted : exists s s' m n, equal_parts s /\ Forall good s /\ fixed s = Some s' /\ In [m] s' /\ m_ts m = Some 12 /\ In n (m_notes m) /\ n_rest n = true /\ n_hidden n = false /\ n_len n = 16.
Proof.
  exists [[Measure 0 (Some 12) [Note None 0 0 true true None; rs 0 0 16] []]]. eexists. eexists. eexists. split; [exists 1%nat; repeat constructor|]. split; [good_tac|].
  split; [vm_compute; reflexivity|]. split; [left; reflexivity|]. split; [reflexivity|]. split; [right; left; reflexivity|]. repeat split.
Qed.
Print Assumptions C157_beside_refuted.
