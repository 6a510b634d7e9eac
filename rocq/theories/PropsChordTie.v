(** Property theorem C105: ties that an MEI file puts on whole chords. *)
From Coq Require Import ZArith Lia Bool.
From Verif Require Import PyStr PyStrProofs ChordTieModel.

(** * What is read, step by step: the start of a layer ([None]) or an item of it. *)
Definition step : Type := str * option item.
Definition steps (ls : list layer) : list step :=
  concat (map (fun l => (l_n l, None) :: map (fun x => (l_n l, Some x)) (l_items l)) ls).
Definition begin (v : str) (st : state) : state :=
  match pend st v with
  | Some (c, ts, k) => mkS (chords st) (upd (pend st) v (if 2 <=? k then None else Some (c, ts, k + 1)))
  | None => st
  end.
Definition run (st : state) (s : step) : state :=
  match snd s with None => begin (fst s) st | Some x => readItem (fst s) st x end.
Definition st0 : state := mkS [] (fun _ => None).

Lemma run_items v its : forall st, fold_left run (map (fun x => (v, Some x)) its) st = fold_left (readItem v) its st.
Proof. induction its as [|x its IH]; intros st; [reflexivity|]. cbn [map fold_left]. rewrite <- IH. reflexivity. Qed.
Lemma run_steps ls : forall st, fold_left readLayer ls st = fold_left run (steps ls) st.
Proof.
  induction ls as [|l ls IH]; intros st; [reflexivity|]. unfold steps. cbn [map concat fold_left]. rewrite fold_left_app.
  cbn [fold_left]. rewrite run_items. fold (steps ls). rewrite <- IH. reflexivity.
Qed.
Lemma steps_app a b : steps (a ++ b) = steps a ++ steps b.
Proof. unfold steps. rewrite map_app, concat_app. reflexivity. Qed.

Lemma steps_cons l ls : steps (l :: ls) = ((l_n l, None) :: map (fun x => (l_n l, Some x)) (l_items l)) ++ steps ls.
Proof. reflexivity. Qed.

(** * Ties once given stay. *)
Definition note_le (a b : cnote) : Prop := fst a = fst b /\ (snd a <> None -> snd b = snd a).
Definition ext (A B : list (list cnote)) : Prop :=
  length A <= length B /\
  forall c ns, nth_error A c = Some ns -> exists ns', nth_error B c = Some ns' /\ Forall2 note_le ns ns'.
Lemma le_refl ns : Forall2 note_le ns ns.
Proof. induction ns; constructor; [split; auto|assumption]. Qed.
Lemma le_trans a b : Forall2 note_le a b -> forall c, Forall2 note_le b c -> Forall2 note_le a c.
Proof.
  induction 1 as [|x y a b [H1 H2] H IH]; intros c K; inversion K as [|y' z b' c' [K1 K2] K']; subst; constructor; [|apply IH; assumption].
  split; [congruence|]. intros N. specialize (H2 N). rewrite K2; congruence.
Qed.
Lemma ext_refl A : ext A A.
Proof. split; [lia|]. intros c ns H. exists ns. split; [exact H|apply le_refl]. Qed.
Lemma ext_trans A B C : ext A B -> ext B C -> ext A C.
Proof.
  intros [L1 H1] [L2 H2]. split; [lia|]. intros c ns H. destruct (H1 _ _ H) as (ns' & N & F). destruct (H2 _ _ N) as (n2 & N2 & F2).
  exists n2. split; [exact N2|]. eapply le_trans; eassumption.
Qed.
Lemma tieOne_le p k ns : Forall2 note_le ns (tieOne p k ns).
Proof.
  induction ns as [|[q [x|]] ns IH]; cbn [tieOne]; [constructor| |].
  - constructor; [split; auto|exact IH].
  - destruct (q =? p)%Z; constructor; try (split; [reflexivity|cbn; congruence]); [apply le_refl|exact IH].
Qed.
Lemma tieAll_le ps k ns : Forall2 note_le ns (tieAll ps k ns).
Proof.
  induction ns as [|[q [x|]] ns IH]; cbn; [constructor| |]; (constructor; [|exact IH]).
  - split; auto.
  - destruct (existsb (Z.eqb q) ps); split; cbn; congruence.
Qed.
Lemma set_nth_length {A} (l : list A) : forall i x, length (set_nth l i x) = length l.
Proof. induction l as [|y l IH]; intros [|i] x; cbn; try reflexivity. rewrite IH. reflexivity. Qed.
Lemma set_nth_same {A} (l : list A) : forall i x, i < length l -> nth_error (set_nth l i x) i = Some x.
Proof. induction l as [|y l IH]; intros [|i] x H; cbn in *; try lia; [reflexivity|]. apply IH. lia. Qed.
Lemma set_nth_other {A} (l : list A) : forall i j x, i <> j -> nth_error (set_nth l i x) j = nth_error l j.
Proof. induction l as [|y l IH]; intros [|i] [|j] x H; cbn; try reflexivity; try congruence. apply IH. congruence. Qed.
Lemma resolve_ext v f st : (forall k ns, Forall2 note_le ns (f k ns)) -> ext (chords st) (chords (resolve v f st)).
Proof.
  intros F. unfold resolve. destruct (pend st v) as [[[c ts] k]|]; [|apply ext_refl]. cbn [chords].
  split; [rewrite set_nth_length; lia|]. intros d ns H. destruct (Nat.eq_dec c d) as [<-|N].
  - rewrite set_nth_same by (apply nth_error_Some; congruence). eexists. split; [reflexivity|].
    rewrite (nth_error_nth _ _ [] H). apply F.
  - rewrite set_nth_other by exact N. exists ns. split; [exact H|apply le_refl].
Qed.
Lemma ext_app A B : ext A (A ++ B).
Proof.
  split; [rewrite app_length; lia|]. intros c ns H. exists ns. split; [|apply le_refl].
  rewrite nth_error_app1; [exact H|]. apply nth_error_Some. congruence.
Qed.
Lemma item_ext v st x : ext (chords st) (chords (readItem v st x)).
Proof.
  destruct x as [p|ns tie]; cbn [readItem]; [apply resolve_ext; intros; apply tieOne_le|].
  eapply ext_trans; [apply (resolve_ext v (tieAll (map fst ns))); intros; apply tieAll_le|].
  destruct tie as [ts|]; [destruct (str_eqb ts (S_ "t"))|]; cbn [chords]; apply ext_app.
Qed.
Lemma begin_chords v st : chords (begin v st) = chords st.
Proof. unfold begin. destruct (pend st v) as [[[c ts] k]|]; reflexivity. Qed.
Lemma run_ext F : forall st, ext (chords st) (chords (fold_left run F st)).
Proof.
  induction F as [|[v [x|]] F IH]; intros st; [apply ext_refl| |]; cbn [fold_left]; (eapply ext_trans; [|apply IH]).
  - apply item_ext.
  - unfold run. cbn [fst snd]. rewrite begin_chords. apply ext_refl.
Qed.

(** * Which chords have been read. *)
Fixpoint chordsOf (F : list step) : list (str * list cnote * option str) :=
  match F with
  | [] => []
  | (v, Some (IChord ns tie)) :: F' => (v, ns, tie) :: chordsOf F'
  | _ :: F' => chordsOf F'
  end.
Lemma chordsOf_app A B : chordsOf (A ++ B) = chordsOf A ++ chordsOf B.
Proof. induction A as [|[v [[p|ns tie]|]] A IH]; cbn; rewrite ?IH; reflexivity. Qed.
Lemma resolve_length v f st : length (chords (resolve v f st)) = length (chords st).
Proof. unfold resolve. destruct (pend st v) as [[[c ts] k]|]; [apply set_nth_length|reflexivity]. Qed.
Lemma run_length F : forall st, length (chords (fold_left run F st)) = length (chords st) + length (chordsOf F).
Proof.
  induction F as [|[v [[p|ns tie]|]] F IH]; intros st; [cbn; lia| | |]; cbn [fold_left]; rewrite IH; unfold run; cbn [fst snd readItem chordsOf].
  - rewrite resolve_length. reflexivity.
  - assert (E : length (chords (readItem v st (IChord ns tie))) = S (length (chords st))).
    { cbn [readItem]. destruct tie as [ts|]; [destruct (str_eqb ts (S_ "t"))|]; cbn [chords]; rewrite app_length, resolve_length; cbn; lia. }
    cbn [readItem] in E. rewrite E. cbn [length]. lia.
  - rewrite begin_chords. reflexivity.
Qed.

(** * No chord is pending in two places. *)
Definition inv (st : state) : Prop :=
  forall v c ts k, pend st v = Some (c, ts, k) -> c < length (chords st) /\
  forall w ts' k', pend st w = Some (c, ts', k') -> w = v.
Lemma upd_same {A} (f : str -> A) v x : upd f v x v = x.
Proof. unfold upd. replace (str_eqb v v) with true; [reflexivity|]. symmetry. apply str_eqb_eq. reflexivity. Qed.
Lemma upd_other {A} (f : str -> A) v w x : w <> v -> upd f v x w = f w.
Proof. intros N. unfold upd. replace (str_eqb w v) with false; [reflexivity|]. symmetry. apply str_eqb_neq. exact N. Qed.
Lemma str_dec (a b : str) : {a = b} + {a <> b}.
Proof. apply list_eq_dec, ascii_dec. Qed.
Lemma inv_sub st st' : inv st -> length (chords st) <= length (chords st') ->
  (forall v c ts k, pend st' v = Some (c, ts, k) -> exists k', pend st v = Some (c, ts, k')) -> inv st'.
Proof.
  intros I L S v c ts k H. destruct (S _ _ _ _ H) as (k1 & H1). destruct (I _ _ _ _ H1) as [I1 I2]. split; [lia|].
  intros w ts' k' H2. destruct (S _ _ _ _ H2) as (k2 & H3). eapply I2; exact H3.
Qed.
Lemma resolve_pend v f st w c ts k : pend (resolve v f st) w = Some (c, ts, k) -> pend st w = Some (c, ts, k).
Proof.
  unfold resolve. destruct (pend st v) as [[[d us] j]|] eqn:E; [|auto]. cbn [pend].
  destruct (stillPending _); [auto|]. destruct (str_dec w v) as [->|N]; [rewrite upd_same; discriminate|rewrite upd_other by exact N; auto].
Qed.
Lemma resolve_pend_other v f st w : w <> v -> pend (resolve v f st) w = pend st w.
Proof.
  intros N. unfold resolve. destruct (pend st v) as [[[d us] j]|] eqn:E; [|auto]. cbn [pend].
  destruct (stillPending _); [auto|]. rewrite upd_other by exact N. reflexivity.
Qed.
Lemma run_inv st s : inv st -> inv (run st s).
Proof.
  intros I. destruct s as [v [[p|ns tie]|]]; unfold run; cbn [fst snd readItem].
  - eapply inv_sub; [exact I|rewrite resolve_length; lia|]. intros w c ts k H. apply resolve_pend in H. eauto.
  - set (st1 := resolve v _ st).
    assert (I1 : inv st1). { eapply inv_sub; [exact I|unfold st1; rewrite resolve_length; lia|]. intros w c ts k H. apply resolve_pend in H. eauto. }
    clearbody st1.
    assert (I2 : inv (mkS (chords st1 ++ [ns]) (pend st1))).
    { eapply inv_sub; [exact I1|cbn [chords]; rewrite app_length; lia|]. cbn [pend]. eauto. }
    destruct tie as [ts|]; [destruct (str_eqb ts (S_ "t"))|]; try exact I2. cbn [chords pend].
    intros w c us k H. cbn [pend chords] in *. destruct (str_dec w v) as [->|N].
    + rewrite upd_same in H. injection H as <- <- <-. split; [rewrite app_length; cbn; lia|].
      intros w ts' k' H. destruct (str_dec w v) as [->|N]; [reflexivity|]. rewrite upd_other in H by exact N. apply I1 in H. destruct H as [H _]. lia.
    + rewrite upd_other in H by exact N. destruct (I1 _ _ _ _ H) as [H1 H2]. split; [rewrite app_length; lia|].
      intros w' ts' k' H'. destruct (str_dec w' v) as [->|N']; [rewrite upd_same in H'; injection H' as <- _ _; lia|].
      rewrite upd_other in H' by exact N'. eapply H2; exact H'.
  - unfold begin. destruct (pend st v) as [[[c ts] k]|] eqn:E; [|exact I].
    eapply inv_sub; [exact I|cbn; lia|]. intros w d us j H. cbn [pend] in H. destruct (str_dec w v) as [->|N].
    + rewrite upd_same in H. destruct (2 <=? k); [discriminate|]. injection H as <- <- <-. eauto.
    + rewrite upd_other in H by exact N. eauto.
Qed.
Lemma runs_inv F : forall st, inv st -> inv (fold_left run F st).
Proof. induction F as [|s F IH]; intros st I; [exact I|]. cbn [fold_left]. apply IH, run_inv, I. Qed.
Lemma inv0 : inv st0.
Proof. intros v c ts k H. discriminate. Qed.

(** * What comes next ties. *)
Definition has (x : item) (p : Z) : Prop :=
  match x with INote q => q = p | IChord ns _ => In p (map fst ns) end.
Lemma tieOne_ties p k ns i : NoDup (map fst ns) -> nth_error ns i = Some (p, None) ->
  nth_error (tieOne p k ns) i = Some (p, Some k).
Proof.
  revert i. induction ns as [|[q t] ns IH]; intros i N H; [destruct i; discriminate|].
  cbn [map fst] in N. inversion N as [|? ? N1 N2]; subst. destruct i as [|i].
  - injection H as -> ->. cbn [tieOne]. rewrite Z.eqb_refl. reflexivity.
  - cbn [nth_error] in H. assert (Q : q <> p). { intros ->. apply N1. apply in_map_iff. exists (p, None). split; [reflexivity|]. eapply nth_error_In; exact H. }
    cbn [tieOne]. destruct t as [x|]; [cbn [nth_error]; apply IH; assumption|].
    replace (q =? p)%Z with false by (symmetry; apply Z.eqb_neq; exact Q). cbn [nth_error]. apply IH; assumption.
Qed.
Lemma tieAll_ties p ps k ns i : In p ps -> nth_error ns i = Some (p, None) -> nth_error (tieAll ps k ns) i = Some (p, Some k).
Proof.
  intros I H. unfold tieAll. rewrite (map_nth_error _ _ _ H). replace (existsb (Z.eqb p) ps) with true; [reflexivity|].
  symmetry. apply existsb_exists. exists p. split; [exact I|apply Z.eqb_refl].
Qed.
Lemma item_ties v st x p c ts k ns i :
  pend st v = Some (c, ts, k) -> nth_error (chords st) c = Some ns -> NoDup (map fst ns) ->
  nth_error ns i = Some (p, None) -> has x p ->
  exists ns', nth_error (chords (readItem v st x)) c = Some ns' /\ nth_error ns' i = Some (p, Some (tieFromAttr ts)).
Proof.
  intros P C N I X.
  assert (LT : c < length (chords st)) by (apply nth_error_Some; congruence).
  assert (G : forall f, nth_error (f (tieFromAttr ts) ns) i = Some (p, Some (tieFromAttr ts)) ->
    exists ns', nth_error (chords (resolve v f st)) c = Some ns' /\ nth_error ns' i = Some (p, Some (tieFromAttr ts))).
  { intros f H. unfold resolve. rewrite P. cbn [chords]. rewrite set_nth_same by exact LT. eexists. split; [reflexivity|].
    rewrite (nth_error_nth _ _ [] C). exact H. }
  destruct x as [q|ms tie]; cbn [has] in X.
  - subst q. cbn [readItem]. apply G, tieOne_ties; assumption.
  - destruct (G (tieAll (map fst ms)) (tieAll_ties p _ _ _ _ X I)) as (ns' & G1 & G2). exists ns'. split; [|exact G2].
    cbn [readItem]. destruct tie as [us|]; [destruct (str_eqb us (S_ "t"))|]; cbn [chords]; (rewrite nth_error_app1; [exact G1|apply nth_error_Some; congruence]).
Qed.
Lemma ext_tie A B c ns i p k : ext A B -> nth_error A c = Some ns -> nth_error ns i = Some (p, Some k) ->
  exists ns', nth_error B c = Some ns' /\ nth_error ns' i = Some (p, Some k).
Proof.
  intros [_ E] H I. destruct (E _ _ H) as (ns' & H' & F). exists ns'. split; [exact H'|].
  revert i I. clear - F. induction F as [|x y a b [X1 X2] F IH]; intros [|i] I; try discriminate; cbn [nth_error] in *; [|apply IH; exact I].
  injection I as ->. destruct y as [q t]. cbn in *. subst q. rewrite X2 by discriminate. reflexivity.
Qed.
Lemma chord_read v st ns ts : ts <> S_ "t" ->
  let st' := readItem v st (IChord ns (Some ts)) in
  nth_error (chords st') (length (chords st)) = Some ns /\ pend st' v = Some (length (chords st), ts, 1).
Proof.
  intros T. cbn zeta. cbn [readItem]. replace (str_eqb ts (S_ "t")) with false by (symmetry; apply str_eqb_neq; exact T).
  cbn [chords pend]. rewrite upd_same. rewrite resolve_length. split; [|reflexivity].
  rewrite nth_error_app2; rewrite resolve_length; [|lia]. rewrite Nat.sub_diag. reflexivity.
Qed.

(** What the attribute [tie] says: [m], or [i] and [t], in the middle of a tie; [i]
    its beginning; otherwise its end. *)
Inductive says (ts : str) : kind -> Prop :=
  | says_m : In "m"%char ts -> says ts KContinue
  | says_it : In "i"%char ts -> In "t"%char ts -> says ts KContinue
  | says_i : In "i"%char ts -> ~ In "m"%char ts -> ~ In "t"%char ts -> says ts KStart
  | says_t : ~ In "i"%char ts -> ~ In "m"%char ts -> says ts KStop.
Lemma char_in_In c s : char_in c s = true <-> In c s.
Proof.
  unfold char_in. rewrite existsb_exists. split; [intros (x & I & E); apply Ascii.eqb_eq in E; subst; exact I|].
  intros I. exists c. split; [exact I|apply Ascii.eqb_refl].
Qed.
Lemma says_kind ts k : says ts k -> tieFromAttr ts = k.
Proof.
  assert (NI : forall c, ~ In c ts -> char_in c ts = false) by (intros c H; destruct (char_in c ts) eqn:E; [apply char_in_In in E; contradiction|reflexivity]).
  unfold tieFromAttr. intros [M|I T|I M T|I M]; rewrite ?(proj2 (char_in_In _ _) M), ?(NI _ M); [reflexivity| | |].
  - rewrite (proj2 (char_in_In _ _) I), (proj2 (char_in_In _ _) T). rewrite orb_true_r. reflexivity.
  - rewrite (NI _ T), (proj2 (char_in_In _ _) I). reflexivity.
  - rewrite (NI _ I), andb_false_r. reflexivity.
Qed.

(** A tie on a chord, other than one that only ends there, is given to each of its
    notes without a tie of its own that the next note or chord of the layer has
    too, if that is in the same measure.  [n] counts the chords before it. *)
Theorem C105_same_measure : forall ls1 staff v its1 ns ts nxt its2 ls2 i p k,
  says ts k -> ts <> S_ "t" -> NoDup (map fst ns) -> nth_error ns i = Some (p, None) -> has nxt p ->
  let n := length (chordsOf (steps ls1 ++ map (fun x => (v, Some x)) its1)) in
  exists ns', nth_error (readLayers (ls1 ++ mkL staff v (its1 ++ IChord ns (Some ts) :: nxt :: its2) :: ls2)) n = Some ns' /\
    nth_error ns' i = Some (p, Some k).
Proof.
  intros ls1 staff v its1 ns ts nxt its2 ls2 i p k SA T N I X n. apply says_kind in SA. subst k. unfold readLayers. fold st0. rewrite run_steps.
  rewrite steps_app. unfold steps at 2. cbn [map concat l_n l_items]. fold (steps ls2).
  rewrite map_app. cbn [map]. rewrite fold_left_app. cbn [app fold_left]. rewrite <- app_assoc, fold_left_app. cbn [app fold_left].
  match goal with |- context [fold_left run (map ?f its1) ?s0] => set (st := fold_left run (map f its1) s0) end.
  assert (L : length (chords st) = n).
  { unfold st, n. rewrite run_length. unfold run at 1. cbn [fst snd]. rewrite begin_chords, run_length. cbn. rewrite chordsOf_app, app_length. reflexivity. }
  unfold run at 2 3. cbn [fst snd]. destruct (chord_read v st ns ts T) as [C P]. cbn zeta in C, P.
  destruct (item_ties v _ nxt p _ _ _ ns i P C N I X) as (ns' & R1 & R2). rewrite L in R1.
  eapply ext_tie; [apply run_ext|exact R1|exact R2].
Qed.
Print Assumptions C105_same_measure.
Example C105_same_measure_nonvacuous :
  readLayers [mkL 1 (S_ "1") [IChord [(60%Z, None); (64%Z, None)] (Some (S_ "i")); IChord [(60%Z, None); (65%Z, None)] None]]
  = [[(60%Z, Some KStart); (64%Z, None)]; [(60%Z, None); (65%Z, None)]].
Proof. reflexivity. Qed.

(** Layers with other numbers leave a pending chord alone. *)
Lemma other_step w v st s c ts k ns : fst s = w -> w <> v -> inv st -> pend st v = Some (c, ts, k) -> nth_error (chords st) c = Some ns ->
  pend (run st s) v = Some (c, ts, k) /\ nth_error (chords (run st s)) c = Some ns.
Proof.
  intros W N I P C.
  assert (R : forall f, pend (resolve w f st) v = Some (c, ts, k) /\ nth_error (chords (resolve w f st)) c = Some ns).
  { intros f. rewrite resolve_pend_other by congruence. split; [exact P|]. unfold resolve.
    destruct (pend st w) as [[[d us] j]|] eqn:E; [|exact C]. cbn [chords]. rewrite set_nth_other; [exact C|].
    intros ->. destruct (I _ _ _ _ E) as [_ H]. apply N. symmetry. eapply H. exact P. }
  destruct s as [w' x]. cbn [fst] in W. subst w'. unfold run. cbn [fst snd]. destruct x as [[p|ms tie]|]; cbn [readItem].
  - apply R.
  - destruct (R (tieAll (map fst ms))) as [R1 R2].
    destruct tie as [us|]; [destruct (str_eqb us (S_ "t"))|]; cbn [chords pend]; rewrite ?upd_other by congruence;
      (split; [exact R1|]); (rewrite nth_error_app1; [exact R2|apply nth_error_Some; congruence]).
  - unfold begin. destruct (pend st w) as [[[d us] j]|]; [|split; assumption]. cbn [chords pend]. rewrite upd_other by congruence. split; assumption.
Qed.
Lemma other_steps v F c ts k ns : (forall s, In s F -> fst s <> v) -> forall st, inv st -> pend st v = Some (c, ts, k) -> nth_error (chords st) c = Some ns ->
  pend (fold_left run F st) v = Some (c, ts, k) /\ nth_error (chords (fold_left run F st)) c = Some ns.
Proof.
  induction F as [|s F IH]; intros O st I P C; [split; assumption|]. cbn [fold_left].
  destruct (other_step _ v st s c ts k ns eq_refl (O s (or_introl eq_refl)) I P C) as [P' C'].
  apply IH; [intros; apply O; right; assumption|apply run_inv, I|exact P'|exact C'].
Qed.

(** The same holds for the last chord of a measure and the first note or chord of
    the next one, if no other layer read between has the same number.  "Partial"
    because in a file with several staves the layers of all staves are usually
    numbered from 1. *)
Theorem C105_next_measure_partial : forall ls1 staff v its1 ns ts mid nxt its2 ls2 i p k,
  says ts k -> ts <> S_ "t" -> NoDup (map fst ns) -> nth_error ns i = Some (p, None) -> has nxt p ->
  (forall l, In l mid -> l_n l <> v) ->
  let n := length (chordsOf (steps ls1 ++ map (fun x => (v, Some x)) its1)) in
  exists ns', nth_error (readLayers (ls1 ++ mkL staff v (its1 ++ [IChord ns (Some ts)]) :: mid ++ mkL staff v (nxt :: its2) :: ls2)) n = Some ns' /\
    nth_error ns' i = Some (p, Some k).
Proof.
  intros ls1 staff v its1 ns ts mid nxt its2 ls2 i p k SA T N I X O n. apply says_kind in SA. subst k. unfold readLayers. fold st0. rewrite run_steps.
  rewrite steps_app. unfold steps at 2. cbn [map concat l_n l_items]. fold (steps (mid ++ mkL staff v (nxt :: its2) :: ls2)).
  rewrite map_app. cbn [map]. rewrite fold_left_app. cbn [app fold_left]. rewrite <- app_assoc, fold_left_app. cbn [app fold_left].
  match goal with |- context [fold_left run (map ?f its1) ?s0] => set (st := fold_left run (map f its1) s0) end.
  assert (L : length (chords st) = n).
  { unfold st, n. rewrite run_length. unfold run at 1. cbn [fst snd]. rewrite begin_chords, run_length. cbn. rewrite chordsOf_app, app_length. reflexivity. }
  assert (IV : inv st) by (unfold st; apply runs_inv, run_inv, runs_inv, inv0).
  destruct (chord_read v st ns ts T) as [C P]. cbn zeta in C, P. rewrite L in C, P.
  assert (IV' : inv (run st (v, Some (IChord ns (Some ts))))) by (apply run_inv, IV).
  rewrite steps_app, fold_left_app, steps_cons. cbn [map l_n l_items].
  cbn [app fold_left].
  destruct (other_steps v (steps mid) n ts 1 ns) with (st := run st (v, Some (IChord ns (Some ts)))) as [P' C']; try assumption.
  { intros [w x] IN. unfold steps in IN. apply in_concat in IN. destruct IN as (b & B1 & B2). apply in_map_iff in B1. destruct B1 as (l & <- & B1).
    cbn [fst]. specialize (O l B1). destruct B2 as [B2|B2]; [injection B2 as <- _; exact O|]. apply in_map_iff in B2. destruct B2 as (y & B2 & _). injection B2 as <- _. exact O. }
  match goal with |- context [fold_left run (steps mid) ?s0] => change s0 with (run st (v, Some (IChord ns (Some ts)))) end.
  set (s1 := fold_left run (steps mid) (run st (v, Some (IChord ns (Some ts))))) in *. clearbody s1.
  assert (Q : pend (run s1 (v, None)) v = Some (n, ts, 2) /\ nth_error (chords (run s1 (v, None))) n = Some ns).
  { unfold run. cbn [fst snd]. rewrite begin_chords. split; [|exact C']. unfold begin. rewrite P'. cbn [pend]. rewrite upd_same. reflexivity. }
  destruct Q as [Q1 Q2]. set (s2 := run s1 (v, None)) in *. clearbody s2. change (run s2 (v, Some nxt)) with (readItem v s2 nxt).
  destruct (item_ties v s2 nxt p _ _ _ ns i Q1 Q2 N I X) as (ns' & R1 & R2).
  eapply ext_tie; [apply run_ext|exact R1|exact R2].
Qed.
Print Assumptions C105_next_measure_partial.
Example C105_next_measure_nonvacuous :
  readLayers [mkL 1 (S_ "1") [IChord [(60%Z, None); (64%Z, None)] (Some (S_ "i"))]; mkL 2 (S_ "3") [INote 48]; mkL 1 (S_ "1") [INote 64]]
  = [[(60%Z, None); (64%Z, Some KStart)]].
Proof. reflexivity. Qed.

(** With two staves whose layers have the same number a tie across the barline is
    lost, although the chord is repeated at once. *)
Theorem C105_staves_refuted : exists ns, (forall n, In n ns -> snd n = None) /\ ns <> [] /\
  readLayers [mkL 1 (S_ "1") [IChord ns (Some (S_ "i"))]; mkL 2 (S_ "1") [INote 48];
              mkL 1 (S_ "1") [IChord ns None]; mkL 2 (S_ "1") [INote 48]] = [ns; ns].
Proof. exists [(60%Z, None); (64%Z, None)]. split; [cbn [In]; intros n [<-|[<-|[]]]; reflexivity|]. split; [discriminate|reflexivity]. Qed.
Print Assumptions C105_staves_refuted.

(** A tie is also given to notes that are repeated later, with other notes
    between; and to notes that are repeated only in another staff. *)
Theorem C105_wrong_refuted :
  (exists ns ns', readLayers [mkL 1 (S_ "1") [IChord ns (Some (S_ "i")); INote 60; INote 62; INote 64]] = [ns'] /\
     nth_error ns 1 = Some (64%Z, None) /\ nth_error ns' 1 = Some (64%Z, Some KStart)) /\
  (exists ns ns', readLayers [mkL 1 (S_ "1") [IChord ns (Some (S_ "i"))]; mkL 2 (S_ "1") [INote 60]; mkL 1 (S_ "1") [INote 62]] = [ns'] /\
     nth_error ns 0 = Some (60%Z, None) /\ nth_error ns' 0 = Some (60%Z, Some KStart)).
Proof. split; exists [(60%Z, None); (64%Z, None)]; eexists; repeat split. Qed.
Print Assumptions C105_wrong_refuted.

(** * Ties go to notes of the same pitch. *)
Lemma tieOne_only p k ns i q k' : nth_error (tieOne p k ns) i = Some (q, Some k') -> nth_error ns i = Some (q, Some k') \/ q = p.
Proof.
  revert i. induction ns as [|[r [t|]] ns IH]; intros i H; [destruct i; discriminate| |]; cbn [tieOne] in H.
  - destruct i as [|i]; [left; exact H|]. apply IH. exact H.
  - destruct (Z.eqb_spec r p) as [->|_]; (destruct i as [|i]; cbn [nth_error] in *).
    + injection H as <- _. right. reflexivity.
    + left. exact H.
    + discriminate.
    + apply IH. exact H.
Qed.
Lemma tieAll_only ps k ns i q k' : nth_error (tieAll ps k ns) i = Some (q, Some k') -> nth_error ns i = Some (q, Some k') \/ In q ps.
Proof.
  unfold tieAll, cnote in *. rewrite nth_error_map. destruct (nth_error ns i) as [[r [t|]]|]; cbn; intros H; try discriminate.
  - left. exact H.
  - destruct (existsb (Z.eqb r) ps) eqn:E; [|discriminate]. injection H as <- _. right. apply existsb_exists in E. destruct E as (x & E1 & E2). apply Z.eqb_eq in E2. subst. exact E1.
Qed.
Definition later (F : list step) (c : nat) (v : str) (p : Z) : Prop :=
  exists F1 x F2, F = F1 ++ (v, Some x) :: F2 /\ c < length (chordsOf F1) /\ has x p.
Lemma later_more F c v p s : later F c v p -> later (F ++ [s]) c v p.
Proof. intros (F1 & x & F2 & -> & L & H). exists F1, x, (F2 ++ [s]). split; [rewrite <- app_assoc; reflexivity|split; assumption]. Qed.
Definition sound (F : list step) (st : state) : Prop :=
  length (chords st) = length (chordsOf F) /\
  (forall c v ns tie ns' i q k, nth_error (chordsOf F) c = Some (v, ns, tie) -> nth_error (chords st) c = Some ns' ->
     nth_error ns' i = Some (q, Some k) -> nth_error ns i = Some (q, Some k) \/ later F c v q) /\
  (forall v c ts k, pend st v = Some (c, ts, k) -> exists ns tie, nth_error (chordsOf F) c = Some (v, ns, tie)).
Lemma resolve_sound F st v x f :
  (forall k ns i q k', nth_error (f k ns) i = Some (q, Some k') -> nth_error ns i = Some (q, Some k') \/ has x q) ->
  sound F st ->
  let st' := resolve v f st in
  length (chords st') = length (chordsOf F) /\
  (forall c v' ns tie ns' i q k, nth_error (chordsOf F) c = Some (v', ns, tie) -> nth_error (chords st') c = Some ns' ->
     nth_error ns' i = Some (q, Some k) -> nth_error ns i = Some (q, Some k) \/ later (F ++ [(v, Some x)]) c v' q) /\
  (forall v c ts k, pend st' v = Some (c, ts, k) -> exists ns tie, nth_error (chordsOf F) c = Some (v, ns, tie)).
Proof.
  intros FO (S1 & S2 & S3) st'. split; [unfold st'; rewrite resolve_length; exact S1|]. split.
  - intros c v' ns tie ns' i q k C1 C2 I. unfold st', resolve in C2. destruct (pend st v) as [[[d ts] j]|] eqn:P.
    + cbn [chords] in C2. destruct (Nat.eq_dec d c) as [->|N].
      * assert (LT : c < length (chords st)) by (rewrite S1; apply nth_error_Some; congruence).
        rewrite set_nth_same in C2 by exact LT. injection C2 as <-. apply FO in I.
        destruct (nth_error (chords st) c) as [m|] eqn:M; [|apply nth_error_None in M; lia].
        rewrite (nth_error_nth _ _ [] M) in I. destruct I as [I|I].
        -- destruct (S2 _ _ _ _ _ _ _ _ C1 M I) as [X|X]; [left; exact X|right; apply later_more, X].
        -- right. destruct (S3 _ _ _ _ P) as (n2 & t2 & E). rewrite E in C1. injection C1 as -> _ _.
           exists F, x, []. split; [reflexivity|]. split; [apply nth_error_Some; congruence|exact I].
      * rewrite set_nth_other in C2 by exact N. destruct (S2 _ _ _ _ _ _ _ _ C1 C2 I) as [X|X]; [left; exact X|right; apply later_more, X].
    + destruct (S2 _ _ _ _ _ _ _ _ C1 C2 I) as [X|X]; [left; exact X|right; apply later_more, X].
  - intros w c ts k H. apply resolve_pend in H. eapply S3; exact H.
Qed.
Lemma run_sound F st s : sound F st -> sound (F ++ [s]) (run st s).
Proof.
  intros S. destruct s as [v [[p|ms tie]|]]; unfold run; cbn [fst snd readItem]; unfold sound; rewrite chordsOf_app; cbn [chordsOf].
  - rewrite app_nil_r. apply (resolve_sound F st v (INote p)); [|exact S]. intros k ns i q k' H. apply tieOne_only in H. destruct H; [left|right; cbn; congruence]; assumption.
  - destruct (resolve_sound F st v (IChord ms tie) (tieAll (map fst ms))) as (R1 & R2 & R3); [|exact S|].
    { intros k ns i q k' H. apply tieAll_only in H. exact H. }
    set (st1 := resolve v _ st) in *. clearbody st1.
    assert (Q : length (chords st1 ++ [ms]) = length (chordsOf F ++ [(v, ms, tie)]) /\
      (forall c v' ns t ns' i q k, nth_error (chordsOf F ++ [(v, ms, tie)]) c = Some (v', ns, t) -> nth_error (chords st1 ++ [ms]) c = Some ns' ->
       nth_error ns' i = Some (q, Some k) -> nth_error ns i = Some (q, Some k) \/ later (F ++ [(v, Some (IChord ms tie))]) c v' q) /\
      (forall w c ts k, pend st1 w = Some (c, ts, k) -> exists ns t, nth_error (chordsOf F ++ [(v, ms, tie)]) c = Some (w, ns, t))).
    { split; [rewrite !app_length, R1; reflexivity|]. split.
      - intros c v' ns t ns' i q k C1 C2 I. destruct (Nat.lt_ge_cases c (length (chordsOf F))) as [L|L].
        + rewrite nth_error_app1 in C1 by exact L. rewrite nth_error_app1 in C2 by lia. eapply R2; eassumption.
        + rewrite nth_error_app2 in C1 by exact L. rewrite nth_error_app2 in C2 by lia. rewrite R1 in C2.
          destruct (c - length (chordsOf F)) as [|m]; [|destruct m; discriminate]. injection C1 as <- <- <-. injection C2 as <-. left. exact I.
      - intros w c ts k H. destruct (R3 _ _ _ _ H) as (ns & t & E). exists ns, t. rewrite nth_error_app1; [exact E|]. apply nth_error_Some. congruence. }
    destruct Q as (Q1 & Q2 & Q3).
    destruct tie as [us|]; [destruct (str_eqb us (S_ "t"))|]; cbn [chords pend]; (split; [exact Q1|]); (split; [exact Q2|]); try exact Q3.
    intros w c ts k H. destruct (str_dec w v) as [->|N].
    + rewrite upd_same in H. injection H as <- _ _. exists ms, (Some us). rewrite nth_error_app2 by lia. rewrite R1, Nat.sub_diag. reflexivity.
    + rewrite upd_other in H by exact N. eapply Q3; exact H.
  - rewrite app_nil_r. destruct S as (S1 & S2 & S3). rewrite begin_chords. split; [exact S1|]. split.
    + intros c v' ns tie ns' i q k C1 C2 I. destruct (S2 _ _ _ _ _ _ _ _ C1 C2 I) as [X|X]; [left; exact X|right; apply later_more, X].
    + intros w c ts k H. unfold begin in H. destruct (pend st v) as [[[d us] j]|] eqn:P; [|eapply S3; exact H].
      cbn [pend] in H. destruct (str_dec w v) as [->|N].
      * rewrite upd_same in H. destruct (2 <=? j); [discriminate|]. injection H as <- _ _. eapply S3; exact P.
      * rewrite upd_other in H by exact N. eapply S3; exact H.
Qed.
Lemma runs_sound F : sound F (fold_left run F st0).
Proof.
  induction F as [|s F IH] using rev_ind; [|rewrite fold_left_app; apply run_sound, IH].
  split; [reflexivity|]. split; [intros c v ns tie ns' i q k H; destruct c; discriminate|discriminate].
Qed.

(** Every chord comes back; a tie that a note did not have itself is one to a note
    of its pitch that is read later, in a layer with the same number. *)
Theorem C105_pitch : forall ls c v ns tie, nth_error (chordsOf (steps ls)) c = Some (v, ns, tie) ->
  exists ns', nth_error (readLayers ls) c = Some ns' /\ map fst ns' = map fst ns /\
  forall i q k, nth_error ns' i = Some (q, Some k) -> nth_error ns i = Some (q, Some k) \/
    exists F1 x F2, steps ls = F1 ++ (v, Some x) :: F2 /\ c < length (chordsOf F1) /\ has x q.
Proof.
  intros ls c v ns tie H. unfold readLayers. fold st0. rewrite run_steps.
  destruct (runs_sound (steps ls)) as (S1 & S2 & _).
  destruct (nth_error (chords (fold_left run (steps ls) st0)) c) as [ns'|] eqn:E;
    [|apply nth_error_None in E; rewrite S1 in E; exfalso; assert (c < length (chordsOf (steps ls))) by (apply nth_error_Some; congruence); lia].
  exists ns'. split; [reflexivity|]. split; [|intros i q k I; eapply S2; eassumption].
  (* the pitches: from the moment at which the chord was read *)
  assert (D : forall F d w ms t, nth_error (chordsOf F) d = Some (w, ms, t) ->
     exists F1 F2, F = F1 ++ (w, Some (IChord ms t)) :: F2 /\ length (chordsOf F1) = d).
  { induction F as [|[w [[p|ms t]|]] F IH]; intros d w' ms' t' X; cbn [chordsOf] in X; [destruct d; discriminate| | |].
    - destruct (IH _ _ _ _ X) as (F1 & F2 & -> & L). exists ((w, Some (INote p)) :: F1), F2. split; [reflexivity|exact L].
    - destruct d as [|d]; [injection X as <- <- <-; exists [], F; split; reflexivity|].
      destruct (IH _ _ _ _ X) as (F1 & F2 & -> & L). exists ((w, Some (IChord ms t)) :: F1), F2. split; [reflexivity|cbn; congruence].
    - destruct (IH _ _ _ _ X) as (F1 & F2 & -> & L). exists ((w, None) :: F1), F2. split; [reflexivity|exact L]. }
  destruct (D _ _ _ _ _ H) as (F1 & F2 & EF & L). rewrite EF, fold_left_app in E. cbn [fold_left] in E.
  set (s := fold_left run F1 st0) in *.
  assert (LS : length (chords s) = c) by (unfold s; rewrite run_length; cbn; exact L).
  assert (R : nth_error (chords (run s (v, Some (IChord ns tie)))) c = Some ns).
  { unfold run. cbn [fst snd readItem].
    destruct tie as [us|]; [destruct (str_eqb us (S_ "t"))|]; cbn [chords]; (rewrite nth_error_app2; rewrite resolve_length; [|lia]; rewrite LS, Nat.sub_diag; reflexivity). }
  destruct (run_ext F2 (run s (v, Some (IChord ns tie)))) as [_ X]. destruct (X _ _ R) as (n2 & N2 & F).
  pose proof (eq_trans (eq_sym N2) E) as G. injection G as ->. clear - F. induction F as [|a b l1 l2 [A _] F IH]; [reflexivity|]. cbn. congruence.
Qed.
Print Assumptions C105_pitch.
Example C105_pitch_nonvacuous :
  chordsOf (steps [mkL 1 (S_ "1") [IChord [(60%Z, None); (64%Z, None)] (Some (S_ "i")); INote 61]]) = [(S_ "1", [(60%Z, None); (64%Z, None)], Some (S_ "i"))] /\
  readLayers [mkL 1 (S_ "1") [IChord [(60%Z, None); (64%Z, None)] (Some (S_ "i")); INote 61]] = [[(60%Z, None); (64%Z, None)]].
Proof. split; reflexivity. Qed.
