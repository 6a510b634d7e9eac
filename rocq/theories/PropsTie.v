(** C91: ties found for export to MEI. *)
From Verif Require Import PyStr PyStrProofs TieModel.
From Coq Require Import Lia Sorted Permutation.
Local Close Scope Q_scope.

(** ** Vocabulary *)

(** A note, with its measure and its object (itself or its chord). *)
Record sound := Sound { s_measure : nat; s_obj : tobj; s_note : tnote }.
Definition s_id (a : sound) : nat := n_id (s_note a).
Definition s_off (a : sound) : Q := o_off (s_obj a).
Definition s_end (a : sound) : Q := (o_off (s_obj a) + o_ql (s_obj a))%Q.
(** All notes of a part: measure by measure, voice by voice. *)
Definition sounds_obj (k : nat) (o : tobj) : list sound := map (Sound k o) (o_notes o).
Definition sounds_measure (k : nat) (m : tmeasure) : list sound := flat_map (fun v => flat_map (sounds_obj k) v) m.
Fixpoint sounds_from (k : nat) (p : list tmeasure) : list sound :=
  match p with [] => [] | m :: r => sounds_measure k m ++ sounds_from (S k) r end.
Definition sounds (p : list tmeasure) : list sound := sounds_from 0 p.
(** The notes of one pitch. *)
Definition of_pitch (x : str) (p : list tmeasure) : list sound := filter (fun a => str_eqb (n_name (s_note a)) x) (sounds p).
(** [a] has ended when [b] starts, and has started before [b] ends. *)
Definition before (a b : sound) : Prop := (s_end a <= s_off b)%Q /\ (s_off a < s_end b)%Q.

(** Its tie starts, or goes on. *)
Definition starts_tie (a : sound) : Prop := n_tie (s_note a) = Some TieStart \/ n_tie (s_note a) = Some TieContinue.
Definition ends_tie (a : sound) : Prop := n_tie (s_note a) = Some TieStop \/ n_tie (s_note a) = Some TieContinue.

(** ** Proofs: all parts *)
Lemma starts_iff a : starts_tie a <-> n_starts (s_note a) = true.
Proof. unfold starts_tie, n_starts. destruct (n_tie (s_note a)) as [[]|]; intuition congruence. Qed.
Record good (P : list sound) (c : nat) (st : tiestate) : Prop := Good {
  g_open : forall u, In u (opened st) -> exists a, In a P /\ n_starts (s_note a) = true /\ u_start u = s_id a /\ u_name u = n_name (s_note a) /\ u_min u = s_end a /\ s_measure a + u_count u = S c /\ 1 <= u_count u <= 2;
  g_join : forall u e, In (u, e) (joined st) -> exists a b, In a P /\ In b P /\ u_start u = s_id a /\ e = s_id b /\ s_id a <> s_id b /\ n_starts (s_note a) = true /\ n_name (s_note a) = n_name (s_note b) /\ (s_end a <= s_off b)%Q /\ s_measure a <= s_measure b <= S (s_measure a) /\ u_name u = n_name (s_note a);
  g_nodup : NoDup (map u_start (opened st) ++ map (fun j => u_start (fst j)) (joined st)) }.

Lemma take_spec off n : forall l u r, take_tie off n l = Some (u, r) -> Permutation l (u :: r) /\ stops_tie off n u = true.
Proof.
  induction l as [|v l IH]; intros u r H; [discriminate|]. cbn [take_tie] in H. destruct (stops_tie off n v) eqn:E.
  - injection H as <- <-. split; [reflexivity|exact E].
  - destruct (take_tie off n l) as [[w r']|] eqn:T; [|discriminate]. injection H as <- <-. destruct (IH w r' eq_refl) as [P S]. split; [|exact S]. rewrite P. apply perm_swap.
Qed.
Lemma stops_iff off n u : stops_tie off n u = true <-> n_id n <> u_start u /\ u_name u = n_name n /\ (u_min u <= off)%Q.
Proof. unfold stops_tie. rewrite !Bool.andb_true_iff, Bool.negb_true_iff, PeanoNat.Nat.eqb_neq, str_eqb_eq, Qle_bool_iff. tauto. Qed.

Lemma good_stop P c st o n : good P c st -> In (Sound c o n) P -> good P c (stop_tie o st n).
Proof.
  intros [A1 A2 A3] N. unfold stop_tie. destruct (take_tie (o_off o) n (opened st)) as [[u r]|] eqn:T; [|split; assumption].
  apply take_spec in T. destruct T as [T1 T2]. apply stops_iff in T2. destruct T2 as (T2 & T3 & T4).
  assert (U : In u (opened st)) by (eapply Permutation_in; [symmetry; exact T1|left; reflexivity]).
  split; cbn [opened joined].
  - intros w W. apply A1. eapply Permutation_in; [symmetry; exact T1|right; exact W].
  - intros w e W. apply in_app_iff in W. destruct W as [W|[W|[]]]; [apply A2; exact W|]. injection W as <- <-. destruct (A1 u U) as (a & B1 & B2 & B3 & B4 & B5 & B6 & B7).
    exists a, (Sound c o n). unfold s_id, s_off in *. cbn [s_note s_obj s_measure]. rewrite B5 in T4. rewrite B3 in T2. repeat split; auto; try congruence; lia.
  - rewrite map_app. cbn [map fst]. eapply Permutation_NoDup; [|exact A3]. rewrite (Permutation_map u_start T1). cbn [map]. rewrite app_assoc. apply Permutation_cons_app. rewrite app_nil_r. reflexivity.
Qed.
Lemma good_stops P c o : forall ns st, good P c st -> (forall n, In n ns -> In (Sound c o n) P) -> good P c (fold_left (stop_tie o) ns st).
Proof. induction ns as [|n ns IH]; intros st G H; cbn [fold_left]; [exact G|]. apply IH; [apply good_stop; [exact G|apply H; left; reflexivity]|]. intros k K. apply H. right. exact K. Qed.
Lemma good_start P c st o n : good P c st -> ~ In (n_id n) (map s_id P) -> good (P ++ [Sound c o n]) c (TieState (joined st) (start_tie o (opened st) n)).
Proof.
  intros [A1 A2 A3] N. unfold start_tie. split; cbn [opened joined].
  - intros u U. assert (C : In u (opened st) \/ (n_starts n = true /\ u = OTie (n_id n) (n_name n) (o_off o + o_ql o)%Q 1)) by (destruct (n_starts n); [apply in_app_iff in U; destruct U as [U|[<-|[]]]|]; auto).
    destruct C as [C|[C ->]].
    + destruct (A1 u C) as (a & B1 & B2). exists a. split; [apply in_app_iff; left; exact B1|exact B2].
    + exists (Sound c o n). split; [apply in_app_iff; right; left; reflexivity|]. cbn. repeat split; auto; lia.
  - intros u e U. destruct (A2 u e U) as (a & b & B1 & B2 & B3). exists a, b. rewrite !in_app_iff. auto.
  - destruct (n_starts n); [|exact A3]. rewrite map_app. cbn [map u_start]. rewrite <- app_assoc. cbn [app]. apply (NoDup_Add (Add_app (n_id n) (map u_start (opened st)) (map (fun j => u_start (fst j)) (joined st)))). split; [exact A3|].
    intros X. apply N. apply in_app_iff in X. destruct X as [X|X]; apply in_map_iff in X; destruct X as (u & E & U).
    + destruct (A1 u U) as (a & B1 & _ & B3 & _). rewrite <- E, B3. apply in_map. exact B1.
    + destruct u as [u e]. destruct (A2 u e U) as (a & b & B1 & _ & B3 & _). cbn [fst] in E. rewrite <- E, B3. apply in_map. exact B1.
Qed.
Lemma NoDup_app_l {A} (l1 l2 : list A) : NoDup (l1 ++ l2) -> NoDup l1.
Proof. induction l1 as [|x l1 IH]; intros N; [constructor|]. inversion N; subst. constructor; [intros X; apply H1; apply in_app_iff; auto|apply IH; assumption]. Qed.
Lemma good_starts c o : forall ns P st, good P c st -> NoDup (map s_id (P ++ map (Sound c o) ns)) -> good (P ++ map (Sound c o) ns) c (TieState (joined st) (fold_left (start_tie o) ns (opened st))).
Proof.
  induction ns as [|n ns IH]; intros P st G ND; cbn [map fold_left] in *; [rewrite app_nil_r; destruct st; exact G|].
  replace (P ++ Sound c o n :: map (Sound c o) ns) with ((P ++ [Sound c o n]) ++ map (Sound c o) ns) in * by (rewrite <- app_assoc; reflexivity).
  assert (N : ~ In (n_id n) (map s_id P)).
  { rewrite map_app in ND. apply NoDup_app_l in ND. rewrite map_app in ND. cbn [map] in ND. intros X. apply NoDup_remove_2 with (l' := []) in ND. apply ND. rewrite app_nil_r. exact X. }
  exact (IH _ (TieState (joined st) (start_tie o (opened st) n)) (good_start P c st o n G N) ND).
Qed.

Lemma good_pass1_voice c : forall v P st, good P c st -> NoDup (map s_id (P ++ flat_map (sounds_obj c) v)) -> good (P ++ flat_map (sounds_obj c) v) c (fold_left (annotateTies false) v st).
Proof.
  induction v as [|o v IH]; intros P st G ND; cbn [flat_map fold_left] in *; [rewrite app_nil_r; exact G|]. rewrite app_assoc in *. apply IH; [|exact ND].
  assert (ND' : NoDup (map s_id (P ++ sounds_obj c o))) by (rewrite map_app in ND; apply NoDup_app_l in ND; exact ND).
  unfold annotateTies. apply good_stops; [apply good_starts; assumption|]. intros n N. apply in_app_iff. right. unfold sounds_obj. apply in_map. exact N.
Qed.
Lemma good_pass1 c : forall m P st, good P c st -> NoDup (map s_id (P ++ sounds_measure c m)) -> good (P ++ sounds_measure c m) c (fold_left (fun s v => fold_left (annotateTies false) v s) m st).
Proof.
  unfold sounds_measure. induction m as [|v m IH]; intros P st G ND; cbn [flat_map fold_left] in *; [rewrite app_nil_r; exact G|]. rewrite app_assoc in *. apply IH; [|exact ND].
  apply good_pass1_voice; [exact G|]. rewrite map_app in ND. apply NoDup_app_l in ND. exact ND.
Qed.
Lemma good_pass2_voice c P : forall v st, good P c st -> incl (flat_map (sounds_obj c) v) P -> good P c (fold_left (annotateTies true) v st).
Proof.
  induction v as [|o v IH]; intros st G I; cbn [flat_map fold_left] in *; [exact G|]. apply IH; [|intros a A; apply I; apply in_app_iff; right; exact A].
  unfold annotateTies. apply good_stops; [exact G|]. intros n N. apply I. apply in_app_iff. left. unfold sounds_obj. apply in_map. exact N.
Qed.
Lemma good_pass2 c P : forall m st, good P c st -> incl (sounds_measure c m) P -> good P c (fold_left (fun s v => fold_left (annotateTies true) v s) m st).
Proof.
  unfold sounds_measure. induction m as [|v m IH]; intros st G I; cbn [flat_map fold_left] in *; [exact G|]. apply IH; [|intros a A; apply I; apply in_app_iff; right; exact A]. apply good_pass2_voice; [exact G|]. intros a A. apply I. apply in_app_iff. left. exact A.
Qed.
Lemma good_next P c st : good P c st -> good P (S c) (TieState (joined st) (next_measure (opened st))).
Proof.
  intros [A1 A2 A3]. split; cbn [opened joined]; [|exact A2|].
  - intros u U. unfold next_measure in U. apply in_map_iff in U. destruct U as (w & <- & W). apply filter_In in W. destruct W as [W1 W2]. apply PeanoNat.Nat.ltb_lt in W2. destruct (A1 w W1) as (a & B1 & B2 & B3 & B4 & B5 & B6 & B7). exists a. cbn [u_start u_name u_min u_count]. repeat split; auto; lia.
  - unfold next_measure. rewrite map_map. cbn [u_start]. rewrite (map_ext (fun x => u_start x) u_start) by reflexivity. clear - A3. induction (opened st) as [|u l IH]; [exact A3|]. cbn [filter map app] in *. inversion A3; subst. destruct (u_count u <? 2); [|auto]. cbn [map app]. constructor; [|auto].
    intros X. apply H1. apply in_app_iff in X. apply in_app_iff. destruct X as [X|X]; [left|right; exact X]. apply in_map_iff in X. destruct X as (w & E & W). apply filter_In in W. rewrite <- E. apply in_map. tauto.
Qed.
Lemma good_next0 P st : opened st = [] -> good P 0 st -> good P 0 (TieState (joined st) (next_measure (opened st))).
Proof. intros E G. rewrite E. cbn. destruct st as [j o]. cbn in E. subst o. exact G. Qed.
Lemma good_measure c m P st : good P c (TieState (joined st) (next_measure (opened st))) -> NoDup (map s_id (P ++ sounds_measure c m)) -> good (P ++ sounds_measure c m) c (ties_measure st m).
Proof.
  intros G ND. unfold ties_measure. pose proof (good_pass1 c m P _ G ND) as G1. match type of G1 with good _ _ ?s => set (st1 := s) in * end. destruct (opened st1); [exact G1|]. apply good_pass2; [exact G1|]. intros a A. apply in_app_iff. right. exact A.
Qed.
Lemma good_part : forall p c P st, good P c (TieState (joined st) (next_measure (opened st))) -> NoDup (map s_id (P ++ sounds_from c p)) -> p <> [] -> good (P ++ sounds_from c p) (c + length p - 1) (fold_left ties_measure p st).
Proof.
  induction p as [|m p IH]; intros c P st G ND NE; [contradiction|]. cbn [sounds_from fold_left length] in *. rewrite app_assoc in *.
  assert (G1 : good (P ++ sounds_measure c m) c (ties_measure st m)) by (apply good_measure; [exact G|]; rewrite map_app in ND; apply NoDup_app_l in ND; exact ND).
  destruct p as [|m' p]; [cbn [sounds_from fold_left length]; rewrite app_nil_r; replace (c + 1 - 1) with c by lia; exact G1|].
  replace (c + S (length (m' :: p)) - 1) with (S c + length (m' :: p) - 1) by lia. apply IH; [apply good_next; exact G1|exact ND|discriminate].
Qed.
Lemma part_good p : NoDup (map s_id (sounds p)) -> good (sounds p) (length p - 1) (ties_part p).
Proof.
  intros ND. assert (G0 : good [] 0 (TieState [] [])) by (split; cbn; [intros u []|intros u e []|constructor]). destruct p as [|m p]; [exact G0|]. apply (good_part (m :: p) 0 [] (TieState [] [])); [exact G0|exact ND|discriminate].
Qed.

(** Every tie found joins a note that starts a tie with another one of the same pitch, of the same part, that starts when the first has ended,
    in the same measure or the next; no note is the start of two. *)
Theorem C91_sound : forall p, NoDup (map s_id (sounds p)) ->
  NoDup (map fst (ties_of p)) /\
  forall s e, In (s, e) (ties_of p) -> exists a b, In a (sounds p) /\ In b (sounds p) /\ s_id a = s /\ s_id b = e /\ s <> e /\
    starts_tie a /\ n_name (s_note a) = n_name (s_note b) /\ (s_end a <= s_off b)%Q /\ s_measure a <= s_measure b <= S (s_measure a).
Proof.
  intros p ND. destruct (part_good p ND) as [_ A2 A3]. split.
  - unfold ties_of. rewrite map_map. cbn [fst]. clear A2. induction (map u_start (opened (ties_part p))) as [|y l IH]; [exact A3|]. inversion A3; auto.
  - intros s e H. unfold ties_of in H. apply in_map_iff in H. destruct H as ((u & e') & E & U). cbn [fst snd] in E. injection E as <- <-. destruct (A2 u e' U) as (a & b & B1 & B2 & B3 & B4 & B5 & B6). exists a, b. rewrite B3, B4. rewrite starts_iff. repeat split; tauto || auto.
Qed.
Print Assumptions C91_sound.

(** ** Proofs: one pitch *)
Section Pitch.
Context (x : str).
Definition nx (u : otie) : bool := str_eqb (u_name u) x.
Definition px (st : tiestate) : tiestate := TieState (filter (fun j => nx (fst j)) (joined st)) (filter nx (opened st)).
Definition rx (o : tobj) : tobj := TObj (filter (fun n => str_eqb (n_name n) x) (o_notes o)) (o_off o) (o_ql o).

Lemma take_other off n : n_name n <> x -> forall l u r, take_tie off n l = Some (u, r) -> filter nx r = filter nx l /\ nx u = false.
Proof.
  intros N. induction l as [|v l IH]; intros u r H; [discriminate|]. cbn [take_tie] in H. destruct (stops_tie off n v) eqn:E.
  - injection H as <- <-. apply stops_iff in E. destruct E as (_ & E & _). assert (F : nx v = false) by (unfold nx; apply str_eqb_neq; congruence). cbn [filter]. rewrite F. auto.
  - destruct (take_tie off n l) as [[w r']|] eqn:T; [|discriminate]. injection H as <- <-. destruct (IH w r' eq_refl) as [P S]. split; [|exact S]. cbn [filter]. rewrite P. reflexivity.
Qed.
Lemma take_same off n : n_name n = x -> forall l, match take_tie off n l with Some (u, r) => take_tie off n (filter nx l) = Some (u, filter nx r) /\ nx u = true | None => take_tie off n (filter nx l) = None end.
Proof.
  intros N. induction l as [|v l IH]; [reflexivity|]. cbn [take_tie]. destruct (stops_tie off n v) eqn:E.
  - apply stops_iff in E as E'. destruct E' as (_ & E' & _). assert (F : nx v = true) by (unfold nx; apply str_eqb_eq; congruence). cbn [filter]. rewrite F. cbn [take_tie]. rewrite E. auto.
  - destruct (take_tie off n l) as [[w r]|].
    + destruct IH as [IH1 IH2]. split; [|exact IH2]. cbn [filter]. destruct (nx v); [|exact IH1]. cbn [take_tie]. rewrite E, IH1. reflexivity.
    + cbn [filter]. destruct (nx v); [|exact IH]. cbn [take_tie]. rewrite E, IH. reflexivity.
Qed.
Lemma px_stops o o' : o_off o' = o_off o -> forall ns st, px (fold_left (stop_tie o) ns st) = fold_left (stop_tie o') (filter (fun n => str_eqb (n_name n) x) ns) (px st).
Proof.
  intros EO. induction ns as [|n ns IH]; intros st; [reflexivity|]. cbn [fold_left filter]. rewrite IH. unfold stop_tie at 2. destruct (str_eqb (n_name n) x) eqn:E.
  - cbn [fold_left]. f_equal. apply str_eqb_eq in E. pose proof (take_same (o_off o) n E (opened st)) as T. unfold stop_tie. rewrite EO. change (opened (px st)) with (filter nx (opened st)). destruct (take_tie (o_off o) n (opened st)) as [[u r]|].
    + destruct T as [T1 T2]. rewrite T1. unfold px. cbn [joined opened]. rewrite filter_app. cbn [filter fst]. rewrite T2. reflexivity.
    + rewrite T. reflexivity.
  - f_equal. apply str_eqb_neq in E. destruct (take_tie (o_off o) n (opened st)) as [[u r]|] eqn:T; [|reflexivity]. apply take_other in T; [|exact E]. destruct T as [T1 T2]. unfold px. cbn [joined opened]. rewrite filter_app. cbn [filter fst]. rewrite T1, T2, app_nil_r. reflexivity.
Qed.
Lemma px_starts o o' : o_off o' = o_off o -> o_ql o' = o_ql o -> forall ns l, filter nx (fold_left (start_tie o) ns l) = fold_left (start_tie o') (filter (fun n => str_eqb (n_name n) x) ns) (filter nx l).
Proof.
  intros E1 E2. induction ns as [|n ns IH]; intros l; [reflexivity|]. cbn [fold_left filter]. rewrite IH. unfold start_tie at 2. destruct (str_eqb (n_name n) x) eqn:E.
  - cbn [fold_left]. f_equal. unfold start_tie. destruct (n_starts n); [|reflexivity]. rewrite filter_app. cbn [filter]. unfold nx at 2. cbn [u_name]. rewrite E, E1, E2. reflexivity.
  - f_equal. destruct (n_starts n); [|reflexivity]. rewrite filter_app. cbn [filter]. unfold nx at 2. cbn [u_name]. rewrite E, app_nil_r. reflexivity.
Qed.
Lemma px_annotate b o st : px (annotateTies b st o) = annotateTies b (px st) (rx o).
Proof.
  unfold annotateTies. rewrite (px_stops o (rx o)) by reflexivity. f_equal. destruct b; [reflexivity|]. unfold px at 1. cbn [joined opened]. rewrite (px_starts o (rx o)) by reflexivity. reflexivity.
Qed.
Lemma px_voices b : forall m st, px (fold_left (fun s v => fold_left (annotateTies b) v s) m st) = fold_left (fun s v => fold_left (annotateTies b) v s) (map (map rx) m) (px st).
Proof.
  assert (V : forall v st, px (fold_left (annotateTies b) v st) = fold_left (annotateTies b) (map rx v) (px st)) by (induction v as [|o v IH]; intros st; cbn [fold_left map]; [reflexivity|]; rewrite IH, px_annotate; reflexivity).
  induction m as [|v m IH]; intros st; cbn [fold_left map]; [reflexivity|]. rewrite IH, V. reflexivity.
Qed.
End Pitch.

(** The second run may as well be made always. *)
Lemma no_ties_left b : forall m st, b = true -> opened st = [] -> fold_left (fun s v => fold_left (annotateTies b) v s) m st = st.
Proof.
  intros m st ->. revert st. assert (O : forall o st, opened st = [] -> annotateTies true st o = st).
  { intros o st E. unfold annotateTies. induction (o_notes o) as [|n ns IH]; [reflexivity|]. cbn [fold_left]. unfold stop_tie at 2. rewrite E. exact IH. }
  assert (V : forall v st, opened st = [] -> fold_left (annotateTies true) v st = st) by (induction v as [|o v IH]; intros st E; cbn [fold_left]; [reflexivity|]; rewrite (O o st E); apply IH; exact E).
  induction m as [|v m IH]; intros st E; cbn [fold_left]; [reflexivity|]. rewrite (V v st E). apply IH. exact E.
Qed.
Lemma measure_eq st m : ties_measure st m = fold_left (fun s v => fold_left (annotateTies true) v s) m (fold_left (fun s v => fold_left (annotateTies false) v s) m (TieState (joined st) (next_measure (opened st)))).
Proof. unfold ties_measure. match goal with |- context [opened (fold_left ?f ?l ?s)] => set (st1 := fold_left f l s) end. destruct (opened st1) eqn:E; [|reflexivity]. rewrite no_ties_left; auto. Qed.
Lemma next_filter x l : filter (nx x) (next_measure l) = next_measure (filter (nx x) l).
Proof. unfold next_measure. induction l as [|u l IH]; [reflexivity|]. cbn [filter]. destruct (u_count u <? 2) eqn:C; destruct (nx x u) eqn:N; cbn [filter map]; rewrite ?C; cbn [map filter]; unfold nx in *; cbn [u_name]; rewrite ?N, ?IH; reflexivity. Qed.
Lemma px_part x : forall p st, px x (fold_left ties_measure p st) = fold_left ties_measure (map (map (map (rx x))) p) (px x st).
Proof.
  induction p as [|m p IH]; intros st; cbn [fold_left map]; [reflexivity|]. rewrite IH. f_equal. rewrite !measure_eq, !px_voices. do 2 f_equal. unfold px at 1. cbn [joined opened]. rewrite next_filter. reflexivity.
Qed.

(** One note at a time. *)
Definition ev (b : bool) (st : tiestate) (a : sound) : tiestate := annotateTies b st (TObj [s_note a] (o_off (s_obj a)) (o_ql (s_obj a))).
Definition small (o : tobj) : Prop := length (o_notes o) <= 1.
Lemma obj_ev b c o st : small o -> annotateTies b st o = fold_left (ev b) (sounds_obj c o) st.
Proof. unfold small, sounds_obj. destruct o as [[|n [|n2 ns]] off ql]; cbn [o_notes length]; intros H; [destruct b, st; reflexivity|reflexivity|lia]. Qed.
Lemma measure_ev b c : forall m st, (forall v o, In v m -> In o v -> small o) -> fold_left (fun s v => fold_left (annotateTies b) v s) m st = fold_left (ev b) (sounds_measure c m) st.
Proof.
  assert (V : forall v st, (forall o, In o v -> small o) -> fold_left (annotateTies b) v st = fold_left (ev b) (flat_map (sounds_obj c) v) st).
  { induction v as [|o v IH]; intros st H; cbn [fold_left flat_map]; [reflexivity|]. rewrite fold_left_app, <- obj_ev by (apply H; left; reflexivity). apply IH. intros o' O'. apply H. right. exact O'. }
  unfold sounds_measure. induction m as [|v m IH]; intros st H; cbn [fold_left flat_map]; [reflexivity|]. rewrite fold_left_app, <- V by (intros o O; apply (H v); [left; reflexivity|exact O]). apply IH. intros w o W O. apply (H w); [right; exact W|exact O].
Qed.

(** The ties of a sequence of notes of one pitch, each to the next. *)
Definition tie_of (a : sound) (k : nat) : otie := OTie (s_id a) (n_name (s_note a)) (s_end a) (S k - s_measure a).
Definition left_open (k : nat) (a : sound) : list otie := if n_starts (s_note a) && Nat.leb k (S (s_measure a)) then [tie_of a k] else [].
Fixpoint pairs (a : sound) (l : list sound) : list (otie * nat) :=
  match l with [] => [] | b :: r => map (fun u => (u, s_id b)) (left_open (s_measure b) a) ++ pairs b r end.
Definition all_pairs (l : list sound) : list (otie * nat) := match l with [] => [] | a :: r => pairs a r end.
Definition last_open (k : nat) (l : list sound) : list otie := match l with [] => [] | a :: r => left_open k (last r a) end.
Lemma last_cons {A} : forall (l : list A) c a, last (c :: l) a = last l c.
Proof. induction l as [|d l IH]; intros c a; [reflexivity|]. change (last (c :: d :: l) a) with (last (d :: l) a). rewrite !IH. reflexivity. Qed.
Lemma pairs_snoc : forall l a b, pairs a (l ++ [b]) = pairs a l ++ map (fun u => (u, s_id b)) (left_open (s_measure b) (last l a)).
Proof. induction l as [|c l IH]; intros a b; cbn [app pairs]; [rewrite app_nil_r; reflexivity|]. rewrite IH, app_assoc, last_cons. reflexivity. Qed.
Lemma last_snoc {A} : forall (l : list A) b d, last (l ++ [b]) d = b.
Proof. induction l as [|c l IH]; intros b d; [reflexivity|]. cbn [app last]. destruct (l ++ [b]) eqn:E; [destruct l; discriminate|]. rewrite <- E. apply IH. Qed.
Lemma last_In {A} : forall (l : list A) d, l = [] \/ In (last l d) l.
Proof. induction l as [|c l IH]; intros d; [left; reflexivity|]. right. destruct l as [|e l]; [left; reflexivity|]. right. destruct (IH d) as [H|H]; [discriminate|exact H]. Qed.

Definition ok (x : str) (l : list sound) : Prop := ForallOrdPairs before l /\ NoDup (map s_id l) /\ Forall (fun a => n_name (s_note a) = x) l.
Definition rel (k : nat) (H : list sound) (st : tiestate) : Prop := (opened st = last_open k H /\ joined st = all_pairs H) /\ Forall (fun a => s_measure a <= k) H.

Lemma FOP_app {A} (R : A -> A -> Prop) : forall l1 l2, ForallOrdPairs R (l1 ++ l2) -> ForallOrdPairs R l1 /\ ForallOrdPairs R l2 /\ forall a b, In a l1 -> In b l2 -> R a b.
Proof.
  induction l1 as [|c l1 IH]; intros l2 F; [split; [constructor|]; split; [exact F|intros a b []]|]. cbn [app] in F. inversion F as [|? ? F1 F2]; subst. destruct (IH l2 F2) as (I1 & I2 & I3). apply Forall_app in F1. destruct F1 as [F1 F3]. rewrite Forall_forall in F3. split; [constructor; assumption|]. split; [exact I2|]. intros a b [<-|A1] B; auto.
Qed.
Lemma FOP_in {A} (R : A -> A -> Prop) l a b : (exists l1 l2 l3, l = l1 ++ a :: l2 ++ b :: l3) -> ForallOrdPairs R l -> R a b.
Proof. intros (l1 & l2 & l3 & ->) F. apply FOP_app in F. destruct F as (_ & F & _). inversion F as [|? ? F1 _]; subst. rewrite Forall_forall in F1. apply F1. apply in_app_iff. right. left. reflexivity. Qed.

Lemma ev_first x k H b st : ok x (H ++ [b]) -> s_measure b = k -> rel k H st -> rel k (H ++ [b]) (ev false st b).
Proof.
  intros (F & ND & X) <- [[R1 R2] R3]. split; [|apply Forall_app; split; [exact R3|constructor; [lia|constructor]]]. clear R3. apply FOP_app in F. destruct F as (_ & _ & F). rewrite map_app in ND. cbn [map] in ND.
  assert (NB : forall a, In a H -> s_id a <> s_id b) by (intros a A E; apply NoDup_remove_2 in ND; rewrite app_nil_r in ND; apply ND; rewrite <- E; apply in_map; exact A).
  assert (XB : n_name (s_note b) = x) by (rewrite Forall_forall in X; apply X; apply in_app_iff; right; left; reflexivity).
  unfold ev, annotateTies. cbn [o_notes fold_left]. set (o := TObj [s_note b] (o_off (s_obj b)) (o_ql (s_obj b))).
  assert (NEW : start_tie o (opened st) (s_note b) = opened st ++ left_open (s_measure b) b).
  { unfold start_tie, left_open, tie_of. replace (S (s_measure b) - s_measure b) with 1 by lia. rewrite (proj2 (PeanoNat.Nat.leb_le _ _)) by lia. rewrite Bool.andb_true_r. destruct (n_starts (s_note b)); [reflexivity|rewrite app_nil_r; reflexivity]. }
  rewrite NEW. assert (SELF : take_tie (o_off o) (s_note b) (left_open (s_measure b) b) = None).
  { unfold left_open. destruct (n_starts (s_note b) && _); [|reflexivity]. cbn [take_tie]. unfold stops_tie. cbn [tie_of u_start]. unfold s_id. rewrite PeanoNat.Nat.eqb_refl. reflexivity. }
  destruct H as [|a0 r].
  - cbn [last_open all_pairs app] in *. unfold stop_tie. cbn [opened joined]. rewrite R1. cbn [app]. rewrite SELF. split; [reflexivity|exact R2].
  - cbn [app all_pairs last_open] in *. set (a := last r a0) in *. assert (A : In a (a0 :: r)) by (unfold a; destruct (last_In r a0) as [->|L]; [left; reflexivity|right; exact L]).
    unfold stop_tie. cbn [opened joined]. rewrite R1, R2. cbn [all_pairs last_open]. rewrite pairs_snoc, last_snoc. fold a. assert (LO : left_open (s_measure b) a = [tie_of a (s_measure b)] \/ left_open (s_measure b) a = []) by (unfold left_open; destruct (n_starts (s_note a) && (s_measure b <=? S (s_measure a))); auto). destruct LO as [LO|LO]; rewrite LO.
    + cbn [app take_tie map]. rewrite (proj2 (stops_iff _ _ _)); [split; reflexivity|]. cbn [tie_of u_start u_name u_min]. destruct (F a b A (or_introl eq_refl)) as [F1 _]. split; [intros E; apply (NB a A); symmetry; exact E|]. split; [|exact F1]. rewrite Forall_forall in X. rewrite XB. apply X. destruct A as [A|A]; [left; exact A|right; apply in_app_iff; left; exact A].
    + cbn [app map]. rewrite SELF, app_nil_r. split; reflexivity.
Qed.
Lemma evs_first x k : forall E H st, ok x (H ++ E) -> Forall (fun b => s_measure b = k) E -> rel k H st -> rel k (H ++ E) (fold_left (ev false) E st).
Proof.
  induction E as [|b E IH]; intros H st O M R; cbn [fold_left]; [rewrite app_nil_r; exact R|]. inversion M; subst. replace (H ++ b :: E) with ((H ++ [b]) ++ E) in * by (rewrite <- app_assoc; reflexivity). apply IH; [exact O|assumption|].
  apply (ev_first x); auto. destruct O as (O1 & O2 & O3). apply FOP_app in O1. rewrite map_app in O2. apply NoDup_app_l in O2. apply Forall_app in O3. split; [tauto|]. split; [exact O2|tauto].
Qed.
(** The second run does nothing. *)
Lemma ev_second x k H b st : ok x H -> In b H -> rel k H st -> ev true st b = st.
Proof.
  intros (F & ND & X) B [[R1 R2] _]. unfold ev, annotateTies. cbn [o_notes fold_left]. unfold stop_tie. cbn [o_off]. rewrite R1. destruct H as [|a0 r]; [destruct B|]. cbn [last_open]. unfold left_open. destruct (n_starts (s_note (last r a0)) && _); [|reflexivity]. cbn [take_tie].
  destruct (stops_tie (o_off (s_obj b)) (s_note b) (tie_of (last r a0) k)) eqn:S; [|reflexivity]. exfalso. apply stops_iff in S. cbn [tie_of u_start u_name u_min] in S. destruct S as (S1 & _ & S3).
  assert (SP : exists l, a0 :: r = l ++ [last r a0]).
  { clear. revert a0. induction r as [|c r IH]; intros a0; [exists []; reflexivity|]. destruct (IH c) as (l & L). exists (a0 :: l). cbn [app]. f_equal. rewrite last_cons. exact L. }
  destruct SP as (l & SP). rewrite SP in B, F. apply in_app_iff in B. destruct B as [B|[B|[]]].
  - apply FOP_app in F. destruct F as (_ & _ & F). destruct (F b (last r a0) B (or_introl eq_refl)) as [_ F2]. unfold s_off in F2. apply (Qlt_not_le _ _ F2). exact S3.
  - apply S1. rewrite <- B at 1. reflexivity.
Qed.
Lemma evs_second x k H : forall E st, ok x H -> incl E H -> rel k H st -> fold_left (ev true) E st = st.
Proof.
  induction E as [|b E IH]; intros st O I R; cbn [fold_left]; [reflexivity|]. rewrite (ev_second x k H b st O (I b (or_introl eq_refl)) R). apply IH; auto. intros a A. apply I. right. exact A.
Qed.
Lemma rel_next k H st : rel k H st -> rel (S k) H (TieState (joined st) (next_measure (opened st))).
Proof.
  intros [[R1 R2] R3]. split; [|eapply Forall_impl; [|exact R3]; cbn; lia]. split; [|exact R2]. cbn [opened]. rewrite R1. destruct H as [|a r]; [reflexivity|]. cbn [last_open]. set (z := last r a).
  assert (Z : s_measure z <= k) by (rewrite Forall_forall in R3; apply R3; unfold z; destruct (last_In r a) as [->|L]; [left; reflexivity|right; exact L]). unfold left_open. destruct (n_starts (s_note z)); [|reflexivity]. cbn [andb].
  destruct (PeanoNat.Nat.leb_spec k (S (s_measure z))) as [E1|E1]; destruct (PeanoNat.Nat.leb_spec (S k) (S (s_measure z))) as [E2|E2]; try lia; unfold next_measure; cbn [filter map tie_of u_count]; try reflexivity.
  - rewrite (proj2 (PeanoNat.Nat.ltb_lt _ _)) by lia. cbn [map u_start u_name u_min u_count]. unfold tie_of. replace (S (S k) - s_measure z) with (S (S k - s_measure z)) by lia. reflexivity.
  - rewrite (proj2 (PeanoNat.Nat.ltb_ge _ _)) by lia. reflexivity.
Qed.
Lemma sounds_measure_k k m : Forall (fun b => s_measure b = k) (sounds_measure k m).
Proof. apply Forall_forall. intros b B. unfold sounds_measure in B. apply in_flat_map in B. destruct B as (v & _ & B). apply in_flat_map in B. destruct B as (o & _ & B). unfold sounds_obj in B. apply in_map_iff in B. destruct B as (n & <- & _). reflexivity. Qed.
Lemma rel_part x : forall p k H st, rel k H (TieState (joined st) (next_measure (opened st))) -> ok x (H ++ sounds_from k p) -> (forall m v o, In m p -> In v m -> In o v -> small o) ->
  joined (fold_left ties_measure p st) = all_pairs (H ++ sounds_from k p) \/ p = [].
Proof.
  induction p as [|m p IH]; intros k H st R O SM; [right; reflexivity|]. left. cbn [fold_left sounds_from] in *. rewrite app_assoc in *.
  assert (O1 : ok x (H ++ sounds_measure k m)) by (destruct O as (A1 & A2 & A3); apply FOP_app in A1; rewrite map_app in A2; apply NoDup_app_l in A2; apply Forall_app in A3; split; [tauto|]; split; [exact A2|tauto]).
  assert (S1 : forall v o, In v m -> In o v -> small o) by (intros v o V Ho; apply (SM m v o); [left; reflexivity|exact V|exact Ho]).
  assert (R1 : rel k (H ++ sounds_measure k m) (ties_measure st m)).
  { rewrite measure_eq, !(measure_ev _ k) by exact S1. pose proof (evs_first x k _ H _ O1 (sounds_measure_k k m) R) as R1. rewrite (evs_second x k _ _ _ O1); [exact R1| |exact R1]. intros a A. apply in_app_iff. right. exact A. }
  destruct (IH (S k) (H ++ sounds_measure k m) (ties_measure st m)) as [E|E]; [apply rel_next; exact R1|exact O|intros m' v o M; apply SM; right; exact M|exact E|]. subst p. cbn [fold_left sounds_from]. rewrite app_nil_r. exact (proj2 (proj1 R1)).
Qed.

(** Restriction of a part to a pitch. *)
Definition same_sound (x : str) (a : sound) : sound := Sound (s_measure a) (rx x (s_obj a)) (s_note a).
Definition has_x (x : str) (a : sound) : bool := str_eqb (n_name (s_note a)) x.
Lemma restrict_obj x k o : sounds_obj k (rx x o) = map (same_sound x) (filter (has_x x) (sounds_obj k o)).
Proof. unfold sounds_obj. cbn [rx o_notes]. induction (o_notes o) as [|n ns IH]; [reflexivity|]. cbn [filter map]. unfold has_x at 1. cbn [s_note]. destruct (str_eqb (n_name n) x); [|exact IH]. cbn [map]. rewrite IH. reflexivity. Qed.
Lemma filter_flat_map {A B} (f : B -> bool) (g : A -> list B) l : filter f (flat_map g l) = flat_map (fun a => filter f (g a)) l.
Proof. induction l as [|a l IH]; [reflexivity|]. cbn [flat_map]. rewrite filter_app, IH. reflexivity. Qed.
Lemma map_flat_map {A B C} (f : B -> C) (g : A -> list B) l : map f (flat_map g l) = flat_map (fun a => map f (g a)) l.
Proof. induction l as [|a l IH]; [reflexivity|]. cbn [flat_map]. rewrite map_app, IH. reflexivity. Qed.
Lemma flat_map_map {A B C} (f : B -> list C) (g : A -> B) l : flat_map f (map g l) = flat_map (fun a => f (g a)) l.
Proof. induction l as [|a l IH]; [reflexivity|]. cbn [flat_map map]. rewrite IH. reflexivity. Qed.
Lemma restrict_part x : forall p k, sounds_from k (map (map (map (rx x))) p) = map (same_sound x) (filter (has_x x) (sounds_from k p)).
Proof.
  induction p as [|m p IH]; intros k; [reflexivity|]. cbn [map sounds_from]. rewrite filter_app, map_app, IH. f_equal. unfold sounds_measure. rewrite flat_map_map, filter_flat_map, map_flat_map. apply flat_map_ext. intros v. rewrite flat_map_map, filter_flat_map, map_flat_map. apply flat_map_ext. intros o. apply restrict_obj.
Qed.
Lemma ok_restrict x p : NoDup (map s_id (sounds p)) -> ForallOrdPairs before (of_pitch x p) -> ok x (sounds (map (map (map (rx x))) p)).
Proof.
  intros ND F. unfold sounds. rewrite restrict_part. fold (sounds p). change (filter (has_x x) (sounds p)) with (of_pitch x p). split; [|split].
  - induction F as [|a l F1 _ IH]; cbn [map]; constructor; [|exact IH]. apply Forall_map. eapply Forall_impl; [|exact F1]. intros b Hb. exact Hb.
  - rewrite map_map. change (fun y => s_id (same_sound x y)) with s_id. unfold of_pitch. clear F. induction (sounds p) as [|a l IH]; [constructor|]. cbn [map filter] in *. inversion ND; subst. destruct (str_eqb (n_name (s_note a)) x); [|auto]. cbn [map]. constructor; [|auto]. intros X. apply H1. apply in_map_iff in X. destruct X as (b & E & B). apply filter_In in B. rewrite <- E. apply in_map. tauto.
  - apply Forall_map. apply Forall_forall. intros a A. unfold of_pitch in A. apply filter_In in A. destruct A as [_ A]. apply str_eqb_eq in A. exact A.
Qed.
Lemma small_restrict x p : ForallOrdPairs before (of_pitch x p) -> forall m v o, In m (map (map (map (rx x))) p) -> In v m -> In o v -> small o.
Proof.
  intros F m v o M V O. apply in_map_iff in M. destruct M as (m0 & <- & M). apply in_map_iff in V. destruct V as (v0 & <- & V). apply in_map_iff in O. destruct O as (o0 & <- & O).
  assert (SUB0 : forall k, exists k' l1 l2, sounds_from k p = l1 ++ sounds_obj k' o0 ++ l2).
  { clear F. induction p as [|m p IH]; intros k; [destruct M|]. cbn [sounds_from]. destruct M as [->|M].
    - apply in_split in V. destruct V as (va & vb & ->). apply in_split in O. destruct O as (oa & ob & ->). unfold sounds_measure. rewrite flat_map_app. cbn [flat_map]. rewrite flat_map_app. cbn [flat_map].
      exists k, (flat_map (fun v => flat_map (sounds_obj k) v) va ++ flat_map (sounds_obj k) oa), (flat_map (sounds_obj k) ob ++ flat_map (fun v => flat_map (sounds_obj k) v) vb ++ sounds_from (S k) p). rewrite <- !app_assoc. reflexivity.
    - destruct (IH M (S k)) as (k' & l1 & l2 & E). rewrite E. exists k', (sounds_measure k m ++ l1), l2. rewrite <- app_assoc. reflexivity. }
  assert (SUB : exists k l1 l2, of_pitch x p = l1 ++ filter (has_x x) (sounds_obj k o0) ++ l2).
  { change (of_pitch x p) with (filter (has_x x) (sounds_from 0 p)). destruct (SUB0 0) as (k & l1 & l2 & E). rewrite E, !filter_app. eauto. }
  destruct SUB as (k & l1 & l2 & E). rewrite E in F. apply FOP_app in F. destruct F as (_ & F & _). apply FOP_app in F. destruct F as (F & _ & _).
  unfold small. assert (L : length (o_notes (rx x o0)) = length (filter (has_x x) (sounds_obj k o0))) by (rewrite <- (map_length (same_sound x)), <- restrict_obj; unfold sounds_obj; rewrite map_length; reflexivity).
  rewrite L. clear L E. assert (SAME : forall a, In a (filter (has_x x) (sounds_obj k o0)) -> s_obj a = o0) by (intros a A; apply filter_In in A; destruct A as [A _]; unfold sounds_obj in A; apply in_map_iff in A; destruct A as (n & <- & _); reflexivity).
  destruct (filter (has_x x) (sounds_obj k o0)) as [|a [|b l]]; cbn [length]; [lia|lia|]. exfalso. inversion F as [|? ? F1 _]; subst. inversion F1 as [|? ? [B1 B2] _]; subst. unfold s_end, s_off in *. rewrite (SAME a), (SAME b) in * by (cbn; auto). apply (Qlt_not_le _ _ B2). exact B1.
Qed.

(** The pairs, said otherwise. *)
Lemma pairs_in : forall l a s e, (exists u, In (u, e) (pairs a l) /\ u_start u = s) <-> exists A y z B, a :: l = A ++ y :: z :: B /\ s_id y = s /\ s_id z = e /\ n_starts (s_note y) = true /\ s_measure z <= S (s_measure y).
Proof.
  induction l as [|b l IH]; intros a s e; cbn [pairs].
  - split; [intros (u & [] & _)|]. intros (A & y & z & B & E & _). destruct A as [|c [|d A]]; discriminate.
  - split.
    + intros (u & U & E). apply in_app_iff in U. destruct U as [U|U].
      * unfold left_open in U. destruct (n_starts (s_note a) && (s_measure b <=? S (s_measure a))) eqn:C; [|destruct U]. destruct U as [U|[]]. injection U as <- <-. apply Bool.andb_true_iff in C. destruct C as [C1 C2]. apply PeanoNat.Nat.leb_le in C2. exists [], a, b, l. cbn in E. auto.
      * destruct (proj1 (IH b s e)) as (A & y & z & B & E' & R); [exists u; auto|]. exists (a :: A), y, z, B. split; [cbn [app]; f_equal; exact E'|exact R].
    + intros (A & y & z & B & E & E1 & E2 & E3 & E4). destruct A as [|c A].
      * injection E as <- <- <-. exists (tie_of a (s_measure b)). split; [|exact E1]. apply in_app_iff. left. unfold left_open. rewrite E3, (proj2 (PeanoNat.Nat.leb_le _ _) E4). cbn [andb map]. left. rewrite E2. reflexivity.
      * injection E as <- E. destruct (proj2 (IH b s e)) as (u & U & US); [exists A, y, z, B; auto|]. exists u. split; [apply in_app_iff; right; exact U|exact US].
Qed.
Lemma all_pairs_in l s e : (exists u, In (u, e) (all_pairs l) /\ u_start u = s) <-> exists A y z B, l = A ++ y :: z :: B /\ s_id y = s /\ s_id z = e /\ n_starts (s_note y) = true /\ s_measure z <= S (s_measure y).
Proof. destruct l as [|a l]; [|apply pairs_in]. split; [intros (u & [] & _)|]. intros (A & y & z & B & E & _). destruct A; discriminate. Qed.

(** For a pitch whose notes, voice after voice in each measure, follow each other in time: every note of it that starts a tie is joined to the next note
    of the pitch if that is in the same measure or the next, and to no other. *)
Theorem C91_next_partial : forall p x s, NoDup (map s_id (sounds p)) -> ForallOrdPairs before (of_pitch x p) -> In s (of_pitch x p) ->
  forall e, In (s_id s, e) (ties_of p) <->
    exists l z r, of_pitch x p = l ++ s :: z :: r /\ s_id z = e /\ starts_tie s /\ s_measure z <= S (s_measure s).
Proof.
  intros p x s ND F S e.
  assert (J : joined (px x (ties_part p)) = all_pairs (map (same_sound x) (of_pitch x p))).
  { unfold ties_part. rewrite px_part. change (px x (TieState [] [])) with (TieState [] []).
    destruct (rel_part x (map (map (map (rx x))) p) 0 [] (TieState [] [])) as [E|E]; [repeat split; constructor|exact (ok_restrict x p ND F)|apply small_restrict; exact F| |].
    - cbn [app] in E. rewrite restrict_part in E. exact E.
    - destruct p; [reflexivity|discriminate]. }
  assert (UNIQ : forall a b, In a (sounds p) -> In b (sounds p) -> s_id a = s_id b -> a = b).
  { intros a b A B E. clear - ND A B E. induction (sounds p) as [|c l IH]; [destruct A|]. cbn [map] in ND. inversion ND; subst. destruct A as [->|A], B as [->|B]; auto; exfalso; apply H1; [rewrite E|rewrite <- E]; apply in_map; assumption. }
  assert (IN : forall a, In a (of_pitch x p) -> In a (sounds p)) by (intros a A; apply filter_In in A; tauto).
  assert (X : In (s_id s, e) (ties_of p) <-> exists u, In (u, e) (joined (px x (ties_part p))) /\ u_start u = s_id s).
  { unfold ties_of. split.
    - intros H. apply in_map_iff in H. destruct H as ((u & e') & E & U). cbn [fst snd] in E. injection E as E <-. exists u. split; [|exact E]. unfold px. cbn [joined]. apply filter_In. split; [exact U|]. cbn [fst].
      assert (N : exists a, In a (sounds p) /\ u_start u = s_id a /\ u_name u = n_name (s_note a)) by (destruct (g_join _ _ _ (part_good p ND) u e' U) as (a & b & B); exists a; tauto).
      destruct N as (a & A1 & A2 & A3). assert (a = s) as -> by (apply UNIQ; [exact A1|apply IN; exact S|congruence]). unfold nx. rewrite A3. apply filter_In in S. tauto.
    - intros (u & U & E). apply in_map_iff. exists (u, e). cbn [fst snd]. split; [rewrite E; reflexivity|]. unfold px in U. cbn [joined] in U. apply filter_In in U. tauto. }
  rewrite X, J, all_pairs_in. setoid_rewrite starts_iff. split.
  - intros (A & y & z & B & E & E1 & E2 & E3 & E4). apply map_eq_app in E. destruct E as (l1 & l2 & E & EA & EB). destruct l2 as [|y' [|z' r]]; try discriminate. injection EB as EY EZ ER. subst y z. change (s_id (same_sound x y')) with (s_id y') in E1. change (s_id (same_sound x z')) with (s_id z') in E2. cbn [same_sound s_note s_measure] in E3, E4.
    assert (y' = s) as -> by (apply UNIQ; [apply IN; rewrite E; apply in_app_iff; right; left; reflexivity|apply IN; exact S|exact E1]). exists l1, z', r. auto.
  - intros (l & z & r & E & E1 & E2 & E3). exists (map (same_sound x) l), (same_sound x s), (same_sound x z), (map (same_sound x) r). rewrite E, map_app. cbn [map]. auto.
Qed.
Print Assumptions C91_next_partial.

(** *** Nothing is missed *)
Definition has_end (a : nat) (st : tiestate) : Prop := exists u e, In (u, e) (joined st) /\ u_start u = a.
Definition is_end (b : nat) (st : tiestate) : Prop := exists u, In (u, b) (joined st).
Definition live (a : sound) (c : nat) (st : tiestate) : Prop := has_end (s_id a) st \/ In (tie_of a c) (opened st).
Definition grows (st st' : tiestate) : Prop := incl (joined st) (joined st').
Lemma grows_end a st st' : grows st st' -> has_end a st -> has_end a st'.
Proof. intros G (u & e & U & E). exists u, e. auto. Qed.
Lemma grows_is b st st' : grows st st' -> is_end b st -> is_end b st'.
Proof. intros G (u & U). exists u. auto. Qed.
Lemma stop_grows o st n : grows st (stop_tie o st n).
Proof. unfold grows, stop_tie. destruct (take_tie _ _ _) as [[u r]|]; intros j J; [apply in_app_iff; left|]; exact J. Qed.
Lemma stop_live a c o st n : live a c st -> live a c (stop_tie o st n).
Proof.
  intros [H|H]; [left; apply (grows_end _ st); [apply stop_grows|exact H]|]. unfold stop_tie. destruct (take_tie (o_off o) n (opened st)) as [[u r]|] eqn:T; [|right; exact H]. apply take_spec in T. destruct T as [T _].
  apply (Permutation_in _ T) in H. destruct H as [H|H]; [left; exists u, (n_id n); split; [apply in_app_iff; right; left; reflexivity|rewrite H; reflexivity]|right; exact H].
Qed.
Lemma take_some off n : forall l u, In u l -> stops_tie off n u = true -> exists w r, take_tie off n l = Some (w, r).
Proof.
  induction l as [|v l IH]; intros u U S; [destruct U|]. cbn [take_tie]. destruct (stops_tie off n v) eqn:E; [eauto|]. destruct U as [->|U]; [congruence|]. destruct (IH u U S) as (w & r & ->). eauto.
Qed.
Definition could_end (a : sound) (o : tobj) (n : tnote) : Prop := n_id n <> s_id a /\ n_name n = n_name (s_note a) /\ (s_end a <= o_off o)%Q.
Lemma stop_done a c o st n : live a c st -> could_end a o n -> has_end (s_id a) (stop_tie o st n) \/ is_end (n_id n) (stop_tie o st n).
Proof.
  intros [H|H] (C1 & C2 & C3); [left; apply (grows_end _ st); [apply stop_grows|exact H]|]. right. destruct (take_some (o_off o) n (opened st) _ H) as (w & r & T); [apply stops_iff; cbn; auto|]. unfold stop_tie. rewrite T. exists w. apply in_app_iff. right. left. reflexivity.
Qed.
Lemma stops_all a c o : forall ns st, live a c st -> let st' := fold_left (stop_tie o) ns st in
  grows st st' /\ live a c st' /\ forall n, In n ns -> could_end a o n -> has_end (s_id a) st' \/ is_end (n_id n) st'.
Proof.
  induction ns as [|n ns IH]; intros st L; cbn [fold_left]; [split; [intros j J; exact J|split; [exact L|intros n []]]|].
  destruct (IH _ (stop_live a c o st n L)) as (G & L' & D). split; [intros j J; apply G; apply (stop_grows o st n); exact J|]. split; [exact L'|].
  intros k [<-|K] C; [|apply D; assumption]. destruct (stop_done a c o st n L C) as [H|H]; [left; apply (grows_end _ _ _ G H)|right; apply (grows_is _ _ _ G H)].
Qed.
Lemma stops_grow o : forall ns st, grows st (fold_left (stop_tie o) ns st).
Proof. induction ns as [|n ns IH]; intros st j J; [exact J|]. cbn [fold_left]. apply IH. apply stop_grows. exact J. Qed.
Lemma starts_incl o : forall ns l, incl l (fold_left (start_tie o) ns l).
Proof. induction ns as [|n ns IH]; intros l u U; [exact U|]. cbn [fold_left]. apply IH. unfold start_tie. destruct (n_starts n); [apply in_app_iff; left|]; exact U. Qed.
Lemma starts_new o n : forall ns l, In n ns -> n_starts n = true -> In (OTie (n_id n) (n_name n) (o_off o + o_ql o)%Q 1) (fold_left (start_tie o) ns l).
Proof.
  induction ns as [|k ns IH]; intros l N S; [destruct N|]. cbn [fold_left]. destruct N as [->|N]; [|apply IH; assumption]. apply starts_incl. unfold start_tie. rewrite S. apply in_app_iff. right. left. reflexivity.
Qed.
Lemma annotate_grows b o st : grows st (annotateTies b st o).
Proof. unfold annotateTies. destruct b; intros j J; apply stops_grow; exact J. Qed.
Lemma annotate_live a c b o st : live a c st -> live a c (annotateTies b st o) /\ forall n, In n (o_notes o) -> could_end a o n -> has_end (s_id a) (annotateTies b st o) \/ is_end (n_id n) (annotateTies b st o).
Proof.
  intros L. unfold annotateTies. assert (L1 : live a c (if b then st else TieState (joined st) (fold_left (start_tie o) (o_notes o) (opened st)))) by (destruct b; [exact L|]; destruct L as [H|H]; [left; exact H|right; apply starts_incl; exact H]).
  destruct (stops_all a c o (o_notes o) _ L1) as (_ & L2 & D). auto.
Qed.
Lemma annotate_new o n c st : In n (o_notes o) -> n_starts n = true -> live (Sound c o n) c (annotateTies false st o).
Proof.
  intros N ST. unfold annotateTies. apply (stops_all (Sound c o n) c o). right. cbn [opened]. unfold tie_of. cbn [s_measure]. replace (S c - c) with 1 by lia. apply starts_new; assumption.
Qed.
(** Runs through lists of objects; voices do not matter any more. *)
Lemma run_flat b : forall m st, fold_left (fun s v => fold_left (annotateTies b) v s) m st = fold_left (annotateTies b) (concat m) st.
Proof. induction m as [|v m IH]; intros st; cbn [fold_left concat]; [reflexivity|]. rewrite fold_left_app. apply IH. Qed.
Lemma objs_grow b : forall l st, grows st (fold_left (annotateTies b) l st).
Proof. induction l as [|o l IH]; intros st j J; [exact J|]. cbn [fold_left]. apply IH. apply annotate_grows. exact J. Qed.
Lemma objs_live a c b : forall l st, live a c st -> live a c (fold_left (annotateTies b) l st) /\ forall o n, In o l -> In n (o_notes o) -> could_end a o n -> has_end (s_id a) (fold_left (annotateTies b) l st) \/ is_end (n_id n) (fold_left (annotateTies b) l st).
Proof.
  induction l as [|o l IH]; intros st L; cbn [fold_left]; [split; [exact L|intros o n []]|]. destruct (annotate_live a c b o st L) as [L1 D1]. destruct (IH _ L1) as [L2 D2]. split; [exact L2|].
  intros o' n [<-|O] N C; [|eapply D2; eassumption]. destruct (D1 n N C) as [H|H]; [left; eapply grows_end; [apply objs_grow|exact H]|right; eapply grows_is; [apply objs_grow|exact H]].
Qed.
Lemma objs_new o n c : forall l st, In o l -> In n (o_notes o) -> n_starts n = true -> live (Sound c o n) c (fold_left (annotateTies false) l st).
Proof.
  induction l as [|o' l IH]; intros st O N ST; [destruct O|]. cbn [fold_left]. destruct O as [->|O]; [|apply IH; assumption]. apply objs_live. apply annotate_new; assumption.
Qed.
Lemma measure_grows st m : grows st (ties_measure st m).
Proof. rewrite measure_eq, !run_flat. intros j J. apply objs_grow. apply objs_grow. exact J. Qed.
Lemma part_grows : forall p st, grows st (fold_left ties_measure p st).
Proof. induction p as [|m p IH]; intros st j J; [exact J|]. cbn [fold_left]. apply IH. apply measure_grows. exact J. Qed.
Definition settled (a : sound) (o : tobj) (n : tnote) (st : tiestate) : Prop := could_end a o n -> has_end (s_id a) st \/ is_end (n_id n) st.
Lemma settled_grows a o n st st' : grows st st' -> settled a o n st -> settled a o n st'.
Proof. intros G S C. destruct (S C) as [H|H]; [left; apply (grows_end _ _ _ G H)|right; apply (grows_is _ _ _ G H)]. Qed.
Lemma measure_first o n c m st : In o (concat m) -> In n (o_notes o) -> n_starts n = true ->
  live (Sound c o n) c (ties_measure st m) /\ forall o' n', In o' (concat m) -> In n' (o_notes o') -> settled (Sound c o n) o' n' (ties_measure st m).
Proof.
  intros O N ST. rewrite measure_eq, !run_flat. assert (L := objs_new o n c (concat m) (TieState (joined st) (next_measure (opened st))) O N ST). destruct (objs_live _ _ true (concat m) _ L) as [L1 D1]. split; [exact L1|]. intros o' n' O' N' C. eapply D1; eassumption.
Qed.
Lemma measure_second a m st : live a (s_measure a) st -> forall o' n', In o' (concat m) -> In n' (o_notes o') -> settled a o' n' (ties_measure st m).
Proof.
  intros L o' n' O' N' C. rewrite measure_eq, !run_flat.
  assert (L1 : live a (S (s_measure a)) (TieState (joined st) (next_measure (opened st)))).
  { destruct L as [H|H]; [left; exact H|right]. cbn [opened]. unfold next_measure. apply in_map_iff. exists (tie_of a (s_measure a)). split; [unfold tie_of; cbn [u_start u_name u_min u_count]; f_equal; lia|]. apply filter_In. split; [exact H|]. cbn [tie_of u_count]. apply PeanoNat.Nat.ltb_lt. lia. }
  destruct (objs_live _ _ false (concat m) _ L1) as [L2 D2]. destruct (D2 o' n' O' N' C) as [H|H]; [left; eapply grows_end; [apply objs_grow|exact H]|right; eapply grows_is; [apply objs_grow|exact H]].
Qed.
Lemma sounds_measure_in k m b : In b (sounds_measure k m) <-> s_measure b = k /\ In (s_obj b) (concat m) /\ In (s_note b) (o_notes (s_obj b)).
Proof.
  unfold sounds_measure. rewrite in_flat_map. split.
  - intros (v & V & H). apply in_flat_map in H. destruct H as (o & O & H). unfold sounds_obj in H. apply in_map_iff in H. destruct H as (n & <- & N). cbn. split; [reflexivity|]. split; [apply in_concat; eauto|exact N].
  - destruct b as [k' o n]. cbn. intros (-> & O & N). apply in_concat in O. destruct O as (v & V & O). exists v. split; [exact V|]. apply in_flat_map. exists o. split; [exact O|]. unfold sounds_obj. apply in_map. exact N.
Qed.
Lemma sounds_from_in : forall p k b, In b (sounds_from k p) <-> exists m, nth_error p (s_measure b - k) = Some m /\ k <= s_measure b /\ In (s_obj b) (concat m) /\ In (s_note b) (o_notes (s_obj b)).
Proof.
  induction p as [|m p IH]; intros k b; cbn [sounds_from].
  - split; [intros []|]. intros (m & E & _). destruct (s_measure b - k); discriminate.
  - rewrite in_app_iff, sounds_measure_in, IH. split.
    + intros [(E & O & N)|(m' & E & L & R)]; [exists m; rewrite E, PeanoNat.Nat.sub_diag; auto|]. exists m'. replace (s_measure b - k) with (S (s_measure b - S k)) by lia. repeat split; auto; [lia|tauto|tauto].
    + intros (m' & E & L & R). destruct (PeanoNat.Nat.eq_dec (s_measure b) k) as [EQ|NE]; [left; rewrite EQ, PeanoNat.Nat.sub_diag in E; injection E as <-; auto|]. right. exists m'. replace (s_measure b - k) with (S (s_measure b - S k)) in E by lia. repeat split; auto; [lia|tauto|tauto].
Qed.

(** A tie is left without end only if each note that could end it ends another one. *)
Theorem C91_complete : forall p a b, In a (sounds p) -> In b (sounds p) -> starts_tie a -> (forall e, ~ In (s_id a, e) (ties_of p)) ->
  s_id b <> s_id a -> n_name (s_note b) = n_name (s_note a) -> (s_end a <= s_off b)%Q -> s_measure a <= s_measure b <= S (s_measure a) ->
  exists s, In (s, s_id b) (ties_of p).
Proof.
  intros p a b A B ST NO NE NM OFF ME. apply starts_iff in ST. unfold sounds in A, B. apply sounds_from_in in A, B. rewrite PeanoNat.Nat.sub_0_r in A, B. destruct A as (ma & MA & _ & OA & NA), B as (mb & MB & _ & OB & NB).
  assert (SET : settled a (s_obj b) (s_note b) (ties_part p)).
  { unfold ties_part. apply nth_error_split in MA. destruct MA as (p1 & p2 & -> & L1). rewrite fold_left_app. cbn [fold_left].
    set (st := fold_left ties_measure p1 (TieState [] [])). destruct a as [c o n]. cbn [s_measure s_obj s_note] in *.
    destruct (measure_first o n c ma st OA NA ST) as [LV SE].
    destruct (PeanoNat.Nat.eq_dec (s_measure b) c) as [EQ|NQ].
    - rewrite EQ, nth_error_app2, L1, PeanoNat.Nat.sub_diag in MB by lia. cbn in MB. injection MB as <-. eapply settled_grows; [apply part_grows|]. apply SE; assumption.
    - assert (EQ : s_measure b = S c) by lia. rewrite EQ, nth_error_app2, L1 in MB by lia. replace (S c - c) with 1 in MB by lia. cbn [nth_error] in MB. destruct p2 as [|m2 p2]; [discriminate|]. injection MB as ->. cbn [fold_left]. eapply settled_grows; [apply part_grows|]. apply measure_second; assumption. }
  destruct SET as [(u & e & U & E)|(u & U)]; [split; [exact NE|]; split; [exact NM|exact OFF]| |].
  - exfalso. apply (NO e). unfold ties_of. apply in_map_iff. exists (u, e). cbn [fst snd]. rewrite E. auto.
  - exists (u_start u). unfold ties_of. apply in_map_iff. exists (u, s_id b). auto.
Qed.
Print Assumptions C91_complete.

(** The ends of ties are not looked at; and the voices are searched one after the other. *)
Definition c91_gap : list tmeasure :=
  [[[TObj [TNote 0 (S_ "C4") (Some TieStart)] 0 1; TObj [] 1 1; TObj [TNote 1 (S_ "C4") None] 2 2]]].
Definition c91_voices : list tmeasure :=
  [[[TObj [TNote 0 (S_ "C4") (Some TieStart)] 0 1; TObj [] 1 1; TObj [TNote 1 (S_ "C4") None] 2 2];
    [TObj [] 0 1; TObj [TNote 2 (S_ "C4") (Some TieStop)] 1 1; TObj [] 2 2]]].
Theorem C91_refuted :
  (exists p a b, NoDup (map s_id (sounds p)) /\ In a (sounds p) /\ In b (sounds p) /\ In (s_id a, s_id b) (ties_of p) /\ (s_end a < s_off b)%Q /\ ~ ends_tie b) /\
  (exists p a b c, NoDup (map s_id (sounds p)) /\ In a (sounds p) /\ In b (sounds p) /\ In c (sounds p) /\ starts_tie a /\ ends_tie b /\ n_name (s_note a) = n_name (s_note b) /\ (s_off b == s_end a)%Q /\ s_measure a = s_measure b /\
     ~ In (s_id a, s_id b) (ties_of p) /\ In (s_id a, s_id c) (ties_of p) /\ ~ ends_tie c).
Proof.
  split.
  - exists c91_gap. eexists (Sound 0 _ (TNote 0 (S_ "C4") (Some TieStart))), (Sound 0 _ (TNote 1 (S_ "C4") None)). split; [repeat constructor; cbn; intuition discriminate|]. split; [left; reflexivity|]. split; [right; left; reflexivity|]. split; [vm_compute; auto|]. split; [vm_compute; reflexivity|]. intros [H|H]; discriminate.
  - exists c91_voices. eexists (Sound 0 _ (TNote 0 (S_ "C4") (Some TieStart))), (Sound 0 _ (TNote 2 (S_ "C4") (Some TieStop))), (Sound 0 _ (TNote 1 (S_ "C4") None)). split; [repeat constructor; cbn; intuition discriminate|]. split; [left; reflexivity|]. split; [right; right; left; reflexivity|]. split; [right; left; reflexivity|].
    split; [left; reflexivity|]. split; [left; reflexivity|]. split; [reflexivity|]. split; [vm_compute; reflexivity|]. split; [reflexivity|]. split; [vm_compute; intuition discriminate|]. split; [vm_compute; auto|]. intros [H|H]; discriminate.
Qed.
Print Assumptions C91_refuted.

(** A chain of three notes over two barlines, in a chord at its end; another pitch in a second voice; a tie that is
    lost since its end is two measures away. *)
Definition c91_ex : list tmeasure :=
  [ [[TObj [] 0 3; TObj [TNote 0 (S_ "C4") (Some TieStart)] 3 1]; [TObj [TNote 1 (S_ "A3") (Some TieStart)] 0 4]];
    [[TObj [TNote 2 (S_ "C4") (Some TieContinue)] 4 4]; [TObj [] 4 4]];
    [[TObj [TNote 3 (S_ "E4") None; TNote 4 (S_ "C4") (Some TieStop)] 8 4]; [TObj [TNote 5 (S_ "A3") (Some TieStop)] 8 4]] ].
(** A tie into an earlier voice, found in the second run; a second tie to the same note, that goes to a later one. *)
Definition c91_back : list tmeasure :=
  [ [[TObj [] 0 1; TObj [TNote 2 (S_ "C4") (Some TieStop)] 1 3]; [TObj [TNote 0 (S_ "C4") (Some TieStart)] 0 1; TObj [] 1 3]; [TObj [TNote 1 (S_ "C4") (Some TieStart)] 0 1; TObj [] 1 3]];
    [[TObj [] 4 1; TObj [TNote 3 (S_ "C4") None] 5 1]] ].
Example C91_nonvacuous :
  NoDup (map s_id (sounds c91_ex)) /\ ForallOrdPairs before (of_pitch (S_ "C4") c91_ex) /\ ForallOrdPairs before (of_pitch (S_ "A3") c91_ex) /\
  map s_id (of_pitch (S_ "C4") c91_ex) = [0; 2; 4] /\ map s_id (of_pitch (S_ "A3") c91_ex) = [1; 5] /\ ties_of c91_ex = [(0, 2); (2, 4)] /\
  ties_of c91_back = [(0, 2); (1, 3)].
Proof.
  split; [repeat constructor; cbn; intuition discriminate|].
  split; [repeat constructor; discriminate|]. split; [repeat constructor; discriminate|]. vm_compute. auto.
Qed.
