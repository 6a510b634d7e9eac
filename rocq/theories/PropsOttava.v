(** Octave lines and transposing instruments: C130 (octave lines in MEI), C131 (octave
    lines in Humdrum), C132 (transpositions in MEI). *)
From Coq Require Import List ZArith NArith Ascii String Bool Lia.
From Verif Require Import PyStr PyStrProofs ClefModel MeiIdsModel PropsMeiIds MeiOrnProofs MeiOrnProofs2 OttavaModel.
Import ListNotations.
Local Open Scope Z_scope.
Local Open Scope bool_scope.
Local Open Scope list_scope.

(** ** C130: octave lines in MEI *)

(** The octave in which a pitch of an object sounds, and that in which it is shown. *)
Inductive sounds (os : list ottava) (i : str) (n : Z) : Z -> Prop :=
| sounds_plain : (forall o, In o os -> ~ In i (o_elems o)) -> sounds os i n n
| sounds_moved o : In o os -> In i (o_elems o) -> o_trans o = true -> sounds os i n (n + octaves (o_type o))
| sounds_as_is o : In o os -> In i (o_elems o) -> o_trans o = false -> sounds os i n n.
Inductive shows (os : list ottava) (i : str) (n : Z) : Z -> Prop :=
| shows_plain : (forall o, In o os -> ~ In i (o_elems o)) -> shows os i n n
| shows_as_is o : In o os -> In i (o_elems o) -> o_trans o = true -> shows os i n n
| shows_moved o : In o os -> In i (o_elems o) -> o_trans o = false -> shows os i n (n - octaves (o_type o)).

Definition pitches (o : obj) : list Z := match o with ONote _ n => [n] | OChord _ ns => map snd ns | ORest _ => [] end.
Definition from_id (o : ottava) : str := hd [] (o_elems o).
Definition to_id (o : ottava) : str := last (o_elems o) [].

(** The first object of a line is its last, or comes before it. *)
Definition in_order (ids : list str) (o : ottava) : Prop :=
  In (from_id o) ids /\ (from_id o = to_id o \/ exists a b c, ids = a ++ from_id o :: b ++ to_id o :: c).

(** ** Reading *)

Lemma ott_dec : S_ "m21OttavaStart" <> S_ "m21OttavaEnd". Proof. differs. Qed.

Lemma ppOctaves_holds n : n <> [] -> forall hs k m,
  ppOctaves k hs m n (S_ "m21OttavaStart") = last_of (holds startid n hs k) (m n (S_ "m21OttavaStart")) /\
  ppOctaves k hs m n (S_ "m21OttavaEnd") = last_of (holds endid n hs k) (m n (S_ "m21OttavaEnd")).
Proof.
  intros NE. induction hs as [|s hs IH]; intros k m; [split; reflexivity|].
  rewrite !holds_cons, !last_of_cons. cbn [ppOctaves]. set (i := removeOctothorpe (startid s)). set (j := removeOctothorpe (endid s)). clearbody i j. cbn zeta.
  set (m1 := match i with [] => m | _ => setAttr m i (S_ "m21OttavaStart") (show_N k) end).
  set (m2 := match j with [] => m1 | _ => setAttr m1 j (S_ "m21OttavaEnd") (show_N k) end).
  destruct (IH (N.succ k) m2) as [H1 H2]. rewrite H1, H2.
  assert (E1 : m1 n (S_ "m21OttavaStart") = if str_eqb i n then Some (show_N k) else m n (S_ "m21OttavaStart")).
  { unfold m1. destruct (str_eqb i n) eqn:Q.
    - apply str_eqb_eq in Q. rewrite Q. destruct n; [contradiction|]. apply setAttr_same.
    - apply str_eqb_neq in Q. destruct i; [reflexivity|]. apply setAttr_other. left. congruence. }
  assert (E2 : m1 n (S_ "m21OttavaEnd") = m n (S_ "m21OttavaEnd")).
  { unfold m1. destruct i; [reflexivity|]. apply setAttr_other. right. intros Q. apply ott_dec. symmetry. exact Q. }
  assert (E3 : m2 n (S_ "m21OttavaStart") = m1 n (S_ "m21OttavaStart")).
  { unfold m2. destruct j; [reflexivity|]. apply setAttr_other. right. exact ott_dec. }
  assert (E4 : m2 n (S_ "m21OttavaEnd") = if str_eqb j n then Some (show_N k) else m1 n (S_ "m21OttavaEnd")).
  { unfold m2. destruct (str_eqb j n) eqn:Q.
    - apply str_eqb_eq in Q. rewrite Q. destruct n; [contradiction|]. apply setAttr_same.
    - apply str_eqb_neq in Q. destruct j; [reflexivity|]. apply setAttr_other. left. congruence. }
  rewrite E3, E1, E4, E2. split; reflexivity.
Qed.

Lemma addOttavas_length m ns : forall b, length (fold_left (addOttavas m) ns b) = length b.
Proof. induction ns as [|n ns IH]; intros b; [reflexivity|]. cbn [fold_left]. rewrite IH. apply addTos_length. Qed.

Lemma one_of_ids (ids : list str) f p : NoDup ids -> In f ids -> (forall i, In i ids -> p i = true <-> f = i) -> filter p ids = [f].
Proof.
  intros D I P. apply in_split in I as (a & b & ->). pose proof (NoDup_remove_2 _ _ _ D) as N. rewrite filter_app. cbn [filter].
  assert (Z : forall s, (forall i, In i s -> In i (a ++ f :: b) /\ f <> i) -> filter p s = []).
  { induction s as [|i s IH]; intros S; [reflexivity|]. cbn [filter]. destruct (S i (or_introl eq_refl)) as (Ii & F).
    destruct (p i) eqn:Q; [apply P in Q; [contradiction|exact Ii]|]. apply IH. intros j J. apply S. right. exact J. }
  replace (p f) with true by (symmetry; apply P; [apply in_app_iff; right; left; reflexivity|reflexivity]).
  rewrite !Z; [reflexivity| |]; intros i Ii; (split; [apply in_app_iff; cbn [In]; tauto|]); intros <-; apply N, in_app_iff; tauto.
Qed.

Definition span_of (o : ottava) : span := e_span (octaveToMei o).

Lemma ends_are os ids : NoDup ids -> ~ In [] ids -> NoDup (map from_id os) -> NoDup (map to_id os) -> Forall (in_order ids) os ->
  ends_read (map span_of os) ids = map (fun o => if str_eqb (to_id o) (from_id o) then [from_id o] else [from_id o; to_id o]) os.
Proof.
  intros D NE Df Dt Or. unfold ends_read. set (sp := map span_of os). set (m := ppOctaves 0 sp noAttrs).
  assert (St : forall o, removeOctothorpe (startid (span_of o)) = from_id o) by reflexivity.
  assert (En : forall o, removeOctothorpe (endid (span_of o)) = if str_eqb (to_id o) (from_id o) then [] else to_id o).
  { intros o. unfold span_of, octaveToMei. cbn [e_span endid]. fold (to_id o). fold (from_id o). destruct (str_eqb (to_id o) (from_id o)); reflexivity. }
  assert (O1 : once startid sp).
  { intros i j s t n Ei Ej Nn Hi Hj. apply names_octothorpe in Hi, Hj. unfold sp in Ei, Ej. rewrite nth_error_map in Ei, Ej.
    destruct (nth_error os i) as [oi|] eqn:Oi; [|discriminate]. destruct (nth_error os j) as [oj|] eqn:Oj; [|discriminate].
    cbn [option_map] in Ei, Ej. injection Ei as <-. injection Ej as <-. rewrite St in Hi, Hj.
    apply (proj1 (NoDup_nth_error _) Df); [rewrite map_length; apply nth_error_Some; congruence|]. rewrite !nth_error_map, Oi, Oj. cbn [option_map]. congruence. }
  assert (O2 : once endid sp).
  { intros i j s t n Ei Ej Nn Hi Hj. apply names_octothorpe in Hi, Hj. unfold sp in Ei, Ej. rewrite nth_error_map in Ei, Ej.
    destruct (nth_error os i) as [oi|] eqn:Oi; [|discriminate]. destruct (nth_error os j) as [oj|] eqn:Oj; [|discriminate].
    cbn [option_map] in Ei, Ej. injection Ei as <-. injection Ej as <-. rewrite En in Hi, Hj.
    destruct (str_eqb (to_id oi) (from_id oi)); [congruence|]. destruct (str_eqb (to_id oj) (from_id oj)); [congruence|].
    apply (proj1 (NoDup_nth_error _) Dt); [rewrite map_length; apply nth_error_Some; congruence|]. rewrite !nth_error_map, Oi, Oj. cbn [option_map]. congruence. }
  assert (A : adder (addOttavas m) (fun n => opt_ids m n (S_ "m21OttavaStart") ++ opt_ids m n (S_ "m21OttavaEnd"))) by (intros b n; reflexivity).
  apply list_nth_ext; [rewrite !map_length, addOttavas_length, bundle_length; apply map_length|]. intros k K.
  rewrite map_length, addOttavas_length, bundle_length in K. unfold sp in K. rewrite map_length in K.
  destruct (nth_error os k) as [o|] eqn:Eo; [|apply nth_error_None in Eo; lia].
  assert (E : nth_error sp k = Some (span_of o)) by (unfold sp; rewrite nth_error_map, Eo; reflexivity).
  pose proof (all_nth _ _ A ids _ k _ [] D (fun _ _ I => I) (bundle_nodup sp 0) (bundle_nth sp 0%N k _ E)) as R. cbn [app] in R.
  rewrite !nth_error_map, R, Eo. cbn [option_map snd]. f_equal.
  rewrite Forall_forall in Or. destruct (Or o (nth_error_In _ _ Eo)) as [If Od].
  assert (Q : forall n, In n ids -> existsb (str_eqb (show_N (0 + N.of_nat k))) (opt_ids m n (S_ "m21OttavaStart") ++ opt_ids m n (S_ "m21OttavaEnd")) = true
    <-> from_id o = n \/ (to_id o <> from_id o /\ to_id o = n)).
  { intros n I. assert (NN : n <> []) by (intros ->; contradiction). destruct (ppOctaves_holds n NN sp 0%N noAttrs) as [H1 H2].
    unfold opt_ids, m. rewrite H1, H2. unfold noAttrs at 1 2.
    rewrite !opt_last, existsb_app, orb_true_iff, (once_last startid sp n k _ NN O1 E), (once_last endid sp n k _ NN O2 E), <- !names_octothorpe, St, En.
    destruct (str_eqb (to_id o) (from_id o)) eqn:Eq.
    - apply str_eqb_eq in Eq. split; [intros [H | H]; [left; exact H|congruence]|intros [H | [H _]]; [left; exact H|contradiction]].
    - apply str_eqb_neq in Eq. split; [intros [H | H]; [left; exact H|right; split; assumption]|intros [H | [_ H]]; [left; exact H|right; exact H]]. }
  destruct (str_eqb (to_id o) (from_id o)) eqn:Eq.
  - apply str_eqb_eq in Eq. apply one_of_ids; [exact D|exact If|]. intros i I. rewrite (Q i I). split; [intros [H | [H _]]; [exact H|contradiction]|left; assumption].
  - apply str_eqb_neq in Eq. destruct Od as [Od | (a & b & c & Od)]; [congruence|]. apply (two_of ids a b c); [exact D|exact Od|].
    intros i. rewrite filter_In. split; [intros [I H]; apply Q in H; [|exact I]; tauto|intros [I H]; split; [exact I|apply Q; [exact I|]; tauto]].
Qed.

Lemma otype_round t : otype_from (fst (disToMei t)) (snd (disToMei t)) = Some t. Proof. destruct t; reflexivity. Qed.
Lemma types_written os : octave_types (map octaveToMei os) = map (fun o => (o_type o, span_of o)) os.
Proof.
  unfold octave_types. induction os as [|o os IH]; [reflexivity|]. cbn [map flat_map]. rewrite IH.
  change (otype_from (e_dis (octaveToMei o)) (e_place (octaveToMei o))) with (otype_from (fst (disToMei (o_type o))) (snd (disToMei (o_type o)))).
  rewrite otype_round. reflexivity.
Qed.
Lemma ids_written os objs : map obj_id (map objFromMei (map (objToMei os) objs)) = map obj_id objs.
Proof. rewrite !map_map. apply map_ext. intros [i n|i ns|i]; reflexivity. Qed.

Lemma in_ids_In i l : in_ids i l = true <-> In i l.
Proof.
  unfold in_ids. rewrite existsb_exists. split; [intros (x & I & E); apply str_eqb_eq in E; subst; exact I|].
  intros I. exists i. split; [exact I|apply str_eqb_refl].
Qed.

Lemma combine_map2 {A B C} (f : A -> B) (g : A -> C) l : combine (map f l) (map g l) = map (fun x => (f x, g x)) l.
Proof. induction l as [|x l IH]; [reflexivity|]. cbn [map combine]. rewrite IH. reflexivity. Qed.

(** What [fill] does: it keeps the ends. *)
Definition keeps_ends (fill : str -> str -> list str) : Prop := forall f l, hd [] (fill f l) = f /\ last (fill f l) [] = l /\ fill f l <> [].

Lemma read_ottavas fill os objs : keeps_ends fill ->
  NoDup (map obj_id objs) -> ~ In [] (map obj_id objs) -> NoDup (map from_id os) -> NoDup (map to_id os) -> Forall (in_order (map obj_id objs)) os ->
  fst (read_mei fill (fst (write_mei fill os objs)) (snd (write_mei fill os objs)))
  = map (fun o => Ott (o_type o) true (o_elems (fillOttava fill o))) os.
Proof.
  intros KE D NE Df Dt Or. unfold read_mei, write_mei. cbn [fst snd]. rewrite types_written, ids_written, !map_map. cbn [fst snd].
  assert (NE' : forall o, In o os -> o_elems o <> []).
  { intros o Io E. rewrite Forall_forall in Or. destruct (Or o Io) as [I _]. unfold from_id in I. rewrite E in I. contradiction. }
  assert (Fi : forall o, In o os -> from_id (fillOttava fill o) = from_id o /\ to_id (fillOttava fill o) = to_id o).
  { intros o Io. specialize (NE' o Io). unfold from_id, to_id, fillOttava. cbn [o_elems]. destruct (o_elems o) as [|f r] eqn:E; [contradiction|].
    cbn [hd]. destruct (KE f (last (f :: r) [])) as (A & B & _). split; assumption. }
  assert (Ef : map from_id (map (fillOttava fill) os) = map from_id os) by (rewrite map_map; apply map_ext_in; intros o Io; apply Fi, Io).
  assert (Et : map to_id (map (fillOttava fill) os) = map to_id os) by (rewrite map_map; apply map_ext_in; intros o Io; apply Fi, Io).
  pose proof (ends_are (map (fillOttava fill) os) (map obj_id objs) D NE) as H. rewrite Ef, Et in H. specialize (H Df Dt).
  rewrite !map_map in H. rewrite H.
  - rewrite combine_map2, map_map. cbn [fst snd]. apply map_ext_in. intros o Io. destruct (Fi o Io) as [-> ->]. specialize (NE' o Io).
    unfold fillOttava at 1. cbn [o_type o_trans o_elems]. f_equal.
    unfold fillOttava. cbn [o_elems]. unfold from_id, to_id. destruct (o_elems o) as [|f r] eqn:E; [contradiction|]. cbn [hd].
    destruct (str_eqb (last (f :: r) []) f) eqn:Q; [apply str_eqb_eq in Q; rewrite Q; reflexivity|reflexivity].
  - rewrite Forall_forall in *. intros o' Io'. apply in_map_iff in Io' as (o & <- & Io). unfold in_order. destruct (Fi o Io) as [-> ->]. apply Or, Io.
Qed.

(** C130.  Octave lines are read from the file with their types and over the same
    objects, and every pitch of a note or chord is shown in, and sounds in, the octave
    in which it was.  [fill] says what a line covers, given its ends.  Missing: chords
    under octave lines that are not transposing, and objects under several lines; see
    below. *)
Theorem C130_octave_lines_partial : forall fill os objs,
  keeps_ends fill ->
  NoDup (map obj_id objs) -> ~ In [] (map obj_id objs) -> NoDup (map from_id os) -> NoDup (map to_id os) -> Forall (in_order (map obj_id objs)) os ->
  let filled := map (fillOttava fill) os in
  (forall i o o', In o filled -> In o' filled -> In i (o_elems o) -> In i (o_elems o') -> o = o') ->
  (forall i ns, In (OChord i ns) objs -> forall o, In o filled ->
     (In i (o_elems o) -> o_trans o = true) /\ forall n, In n ns -> ~ In (fst n) (o_elems o)) ->
  exists os' objs', read_mei fill (fst (write_mei fill os objs)) (snd (write_mei fill os objs)) = (os', objs')
    /\ Forall2 (fun o o' => o_type o = o_type o' /\ o_elems o = o_elems o' /\ o_trans o' = true) filled os'
    /\ Forall2 (fun x x' => obj_id x = obj_id x'
         /\ Forall2 (fun n n' => (forall z, sounds filled (obj_id x) n z -> sounds os' (obj_id x) n' z)
                                 /\ (forall z, shows filled (obj_id x) n z -> shows os' (obj_id x) n' z)) (pitches x) (pitches x')) objs objs'.
Proof.
  intros fill os objs KE D NE Df Dt Or filled Al Ch.
  pose proof (read_ottavas fill os objs KE D NE Df Dt Or) as R.
  destruct (read_mei fill (fst (write_mei fill os objs)) (snd (write_mei fill os objs))) as [os' objs'] eqn:E. cbn [fst] in R.
  exists os', objs'. split; [reflexivity|]. split.
  - rewrite R. unfold filled. clear. induction os as [|o os IH]; constructor; [repeat split|exact IH].
  - assert (Eo : objs' = map objFromMei (map (objToMei filled) objs)) by (unfold read_mei in E; injection E as _ <-; reflexivity).
    assert (Cov : forall o, In o filled -> exists o', In o' os' /\ o_type o' = o_type o /\ o_elems o' = o_elems o /\ o_trans o' = true).
    { intros o Io. unfold filled in Io. apply in_map_iff in Io as (o0 & <- & Io). eexists. split; [rewrite R; apply in_map_iff; exists o0; split; [reflexivity|exact Io]|].
      repeat split. }
    assert (Unc : forall i, (forall o, In o filled -> ~ In i (o_elems o)) -> forall o', In o' os' -> ~ In i (o_elems o')).
    { intros i H o' Io'. rewrite R in Io'. apply in_map_iff in Io' as (o0 & <- & Io). apply (H (fillOttava fill o0)). unfold filled. apply in_map, Io. }
    assert (One : forall i n,
      let a := octToMei filled i n in
      (forall z, sounds filled i n z -> sounds os' i (octFromMei a) z) /\ (forall z, shows filled i n z -> shows os' i (octFromMei a) z)).
    { intros i n. cbn zeta. unfold octToMei, shift_at. destruct (find (fun o => in_ids i (o_elems o)) filled) as [o|] eqn:Fi.
      - apply find_some in Fi as [Io Hi]. apply in_ids_In in Hi. destruct (Cov o Io) as (o' & Io' & Ty & El & Tr).
        assert (Hi' : In i (o_elems o')) by (rewrite El; exact Hi).
        assert (NZ : octaves (o_type o) =? 0 = false) by (destruct (o_type o); reflexivity). rewrite NZ.
        destruct (o_trans o) eqn:To; cbn [octFromMei a_oct]; (split; intros z H; (destruct H as [H | o1 I1 H1 T1 | o1 I1 H1 T1];
          [destruct (H o Io Hi)| |]); rewrite (Al i o1 o I1 Io H1 Hi) in *; try congruence).
        + rewrite <- Ty. apply sounds_moved; assumption.
        + apply (shows_as_is os' i n o'); assumption.
        + replace n with (n - octaves (o_type o) + octaves (o_type o')) at 2 by (rewrite Ty; lia). apply sounds_moved; assumption.
        + apply (shows_as_is os' i _ o'); assumption.
      - cbn [octFromMei a_oct Z.eqb].
        assert (No : forall o, In o filled -> ~ In i (o_elems o)).
        { intros o Io Hi. pose proof (find_none _ _ Fi o Io) as F. cbn beta in F. apply in_ids_In in Hi. congruence. }
        split; intros z H; destruct H as [H | o1 I1 H1 T1 | o1 I1 H1 T1]; try (destruct (No o1 I1 H1)); constructor; apply Unc, No. }
    rewrite Eo. clear E Eo D NE Or. induction objs as [|x objs IH]; constructor.
    + split; [destruct x; reflexivity|]. destruct x as [i n|i ns|i]; cbn [obj_id pitches objToMei objFromMei]; [constructor; [apply One|constructor]| |constructor].
      assert (Chi := Ch i ns (or_introl eq_refl)). rewrite !map_map. cbn [snd].
      assert (Pl : forall n, In n ns -> octFromMei (octToMei filled (fst n) (snd n)) = snd n).
      { intros n In'. unfold octToMei, shift_at. destruct (find _ filled) as [o|] eqn:Fi; [|reflexivity]. apply find_some in Fi as [Io Hi].
        apply in_ids_In in Hi. destruct (Chi o Io) as [_ C2]. destruct (C2 n In' Hi). }
      assert (Both : forall n, (forall z, sounds filled i n z -> sounds os' i n z) /\ (forall z, shows filled i n z -> shows os' i n z)).
      { intros n. split; intros z H; destruct H as [H | o I1 H1 T1 | o I1 H1 T1]; try (constructor; apply Unc, H).
        - destruct (Cov o I1) as (o' & Io' & Ty & El & Tr). rewrite <- Ty. apply sounds_moved; [exact Io'|rewrite El; exact H1|exact Tr].
        - destruct (Chi o I1) as [C1 _]. rewrite (C1 H1) in T1. discriminate.
        - destruct (Cov o I1) as (o' & Io' & Ty & El & Tr). apply (shows_as_is os' i n o'); [exact Io'|rewrite El; exact H1|exact Tr].
        - destruct (Chi o I1) as [C1 _]. rewrite (C1 H1) in T1. discriminate. }
      clear Chi Ch IH. induction ns as [|n ns IHn]; constructor; [rewrite Pl by (left; reflexivity); apply Both|].
      apply IHn. intros n' I'. apply Pl. right. exact I'.
    + apply IH. intros i ns I. apply Ch. right. exact I.
Qed.
Print Assumptions C130_octave_lines_partial.

(** What lies from one object to another in a voice. *)
Fixpoint until (l : str) (ids : list str) : list str := match ids with [] => [] | i :: r => if str_eqb i l then [i] else i :: until l r end.
Fixpoint from (f l : str) (ids : list str) : list str := match ids with [] => [] | i :: r => if str_eqb i f then until l ids else from f l r end.
Definition voice_fill (ids : list str) (f l : str) : list str :=
  let s := from f l ids in if str_eqb (hd [] s) f && str_eqb (last s []) l && negb (str_eqb l []) then s else f :: [l].

Lemma voice_fill_ends ids : keeps_ends (voice_fill ids).
Proof.
  intros f l. unfold voice_fill. cbn zeta. destruct (str_eqb (hd [] (from f l ids)) f) eqn:A; [|repeat split; discriminate].
  destruct (str_eqb (last (from f l ids) []) l) eqn:B; [|repeat split; discriminate]. destruct (str_eqb l []) eqn:C; [repeat split; discriminate|].
  cbn [andb negb]. apply str_eqb_eq in A, B. apply str_eqb_neq in C. split; [exact A|]. split; [exact B|]. intros E. rewrite E in B. cbn [last] in B. congruence.
Qed.

Definition c_major (i : string) (o : Z) : obj := OChord (S_ i) [(S_ "p", o); (S_ "q", o + 1)].
Example C130_octave_lines_nonvacuous :
  let objs := [ONote (S_ "a") 4; ORest (S_ "r"); ONote (S_ "b") 5; ONote (S_ "c") 5; c_major "d" 4] in
  let os := [Ott Va8 false [S_ "a"; S_ "b"]; Ott Mb15 true [S_ "d"]] in
  let fill := voice_fill (map obj_id objs) in
  let w := write_mei fill os objs in
  read_mei fill (fst w) (snd w)
  = ([Ott Va8 true [S_ "a"; S_ "r"; S_ "b"]; Ott Mb15 true [S_ "d"]],
     [ONote (S_ "a") 3; ORest (S_ "r"); ONote (S_ "b") 4; ONote (S_ "c") 5; c_major "d" 4]).
Proof. vm_compute. reflexivity. Qed.

(** False for a chord under an octave line that is not transposing: its notes are
    written as if there were no line, and come back sounding an octave too high. *)
Theorem C130_chords_refuted : exists fill os objs os' objs' i n z z',
  keeps_ends fill /\ NoDup (map obj_id objs) /\ Forall (in_order (map obj_id objs)) os
  /\ read_mei fill (fst (write_mei fill os objs)) (snd (write_mei fill os objs)) = (os', objs')
  /\ os = [Ott Va8 false [i]] /\ objs = [OChord i [(S_ "n", n)]] /\ objs' = objs
  /\ sounds (map (fillOttava fill) os) i n z /\ sounds os' i n z' /\ z' = z + 1.
Proof.
  exists (fun f l => if str_eqb f l then [f] else [f; l]), [Ott Va8 false [S_ "a"]], [OChord (S_ "a") [(S_ "n", 5)]].
  exists [Ott Va8 true [S_ "a"]], [OChord (S_ "a") [(S_ "n", 5)]], (S_ "a"), 5, 5, 6.
  split. { intros f l. destruct (str_eqb f l) eqn:E; [apply str_eqb_eq in E; subst|]; repeat split; discriminate. }
  split; [repeat constructor; intros []|]. split; [constructor; [|constructor]; split; [left; reflexivity|left; reflexivity]|].
  split; [vm_compute; reflexivity|]. split; [reflexivity|]. split; [reflexivity|]. split; [reflexivity|].
  split; [apply (sounds_as_is _ _ _ (Ott Va8 false [S_ "a"])); [left; reflexivity|left; reflexivity|reflexivity]|].
  split; [apply (sounds_moved [Ott Va8 true [S_ "a"]] (S_ "a") 5 (Ott Va8 true [S_ "a"])); [left; reflexivity|left; reflexivity|reflexivity]|reflexivity].
Qed.
Print Assumptions C130_chords_refuted.

(** ** C131: octave lines in Humdrum *)

(** The pitch at which a note of a part sounds. *)
Definition sound (p : part) (n : Z * option (otype * bool)) : Z :=
  fst n + match p_sounding p, p_inst p with Some false, Some t => t | _, _ => 0 end
  + match snd n with Some (t, true) => 12 * octaves t | _ => 0 end.

(** Reading a Humdrum staff: the notes sound as they are in the file, and are under the
    octave lines that they are under there. *)
Theorem C131_import : forall inst ns, exists p, read_hum inst ns = Some p
  /\ map (fun n => (sound p n, option_map fst (snd n))) (p_notes p) = ns
  /\ (forall n t, In n ns -> snd n = Some t -> p_sounding p = Some false).
Proof.
  intros inst ns. unfold read_hum. cbn zeta. set (p := Part _ _ _).
  assert (L : forall n : Z * option otype, In n ns -> forall t, snd n = Some t -> existsb (fun n => match snd n with Some _ => true | None => false end) ns = true).
  { intros n I t E. apply existsb_exists. exists n. split; [exact I|]. rewrite E. reflexivity. }
  destruct (isTransposing p || existsb _ ns) eqn:T.
  - eexists. split; [reflexivity|]. split; [|intros; reflexivity]. unfold p. cbn [p_notes p_inst p_sounding]. rewrite !map_map. clear.
    etransitivity; [|apply map_id]. apply map_ext. intros [z [t|]]; unfold by_inst, sound; cbn [p_inst p_sounding fst snd option_map undo];
      destruct inst as [s|]; cbn [fst snd undo option_map]; f_equal; lia.
  - eexists. split; [reflexivity|]. split.
    + apply orb_false_iff in T as [_ T]. unfold p. cbn [p_notes]. rewrite map_map. etransitivity; [|apply map_id]. apply map_ext_in.
      intros [z [t|]] I; cbn [fst snd option_map]; [rewrite (L _ I t eq_refl) in T; discriminate|]. unfold sound. cbn [p_sounding p_inst fst snd option_map]. f_equal. lia.
    + intros n t I E. apply orb_false_iff in T as [_ T]. rewrite (L n I t E) in T. discriminate.
Qed.
Print Assumptions C131_import.

Example C131_import_nonvacuous :
  exists p, read_hum (Some (-2)) [(60, None); (84, Some Va8)] = Some p /\ p_notes p = [(62, None); (74, Some (Va8, true))].
Proof. eexists. split; vm_compute; reflexivity. Qed.

(** Writing a part: its notes are written as they sound, if it is known whether it is at
    sounding pitch, and either its instrument transposes or it has no octave lines that
    are transposing (and is not at written pitch of a transposing instrument that is
    at sounding pitch with such lines). *)
Theorem C131_export_partial : forall p,
  p_sounding p = Some false /\ (exists t, p_inst p = Some t /\ t <> 0)
  \/ (p_sounding p = Some true \/ forall t, p_inst p = Some t -> t = 0) /\ (forall n t, In n (p_notes p) -> snd n <> Some (t, true)) ->
  p_sounding p <> None ->
  write_hum p = Some (map (fun n => (sound p n, option_map fst (snd n))) (p_notes p)).
Proof.
  intros p H K. unfold write_hum, writtenToSounding.
  destruct H as [[S (t & I & NZ)] | [A B]].
  - rewrite S. unfold isTransposing. rewrite I. replace (t =? 0) with false by (symmetry; apply Z.eqb_neq, NZ). cbn [negb].
    unfold toSounding. rewrite S. cbn [p_notes]. rewrite !map_map. f_equal. apply map_ext. intros [z [[u []]|]]; unfold by_inst, sound; rewrite S, I; cbn [fst snd perform option_map]; f_equal; lia.
  - assert (E : (match p_sounding p with Some false => if isTransposing p then toSounding p else Some p | _ => Some p end) = Some p).
    { destruct (p_sounding p) as [[|]|] eqn:S; try reflexivity. destruct A as [A | A]; [discriminate|]. unfold isTransposing.
      destruct (p_inst p) as [t|]; [rewrite (A t eq_refl)|]; reflexivity. }
    rewrite E. f_equal. apply map_ext_in. intros [z o] In'. cbn [fst snd]. f_equal. unfold sound. cbn [fst snd].
    assert (O : match o with Some (t, true) => 12 * octaves t | _ => 0 end = 0).
    { destruct o as [[t [|]]|]; try reflexivity. destruct (B _ t In' eq_refl). }
    rewrite O. destruct (p_sounding p) as [[|]|]; try lia. destruct (p_inst p) as [t|]; [|lia]. destruct A as [A | A]; [discriminate|]. rewrite (A t eq_refl). lia.
Qed.
Print Assumptions C131_export_partial.

(** So a file of an instrument that transposes, or without octave lines, is written as
    it was read. *)
Theorem C131_round_partial : forall inst ns p, read_hum inst ns = Some p ->
  (exists t, inst = Some t /\ t <> 0) \/ (forall n, In n ns -> snd n = None) -> write_hum p = Some ns.
Proof.
  intros inst ns p R H. destruct (C131_import inst ns) as (p' & R' & N & _). rewrite R in R'. injection R' as <-.
  assert (I : p_inst p = inst /\ (p_sounding p = Some false \/ p_sounding p = Some true)
    /\ ((forall n, In n ns -> snd n = None) -> forall n, In n (p_notes p) -> snd n = None)).
  { unfold read_hum in R. destruct (_ || _); [unfold toWritten in R; cbn [p_sounding] in R|]; injection R as <-.
    - split; [reflexivity|]. split; [left; reflexivity|]. cbn [p_notes]. rewrite !map_map. intros K n J. apply in_map_iff in J as (m & <- & J).
      specialize (K m J). destruct m as [z o]. cbn [snd] in K. subst o. unfold by_inst. cbn [p_inst fst snd option_map]. destruct inst; reflexivity.
    - split; [reflexivity|]. split; [right; reflexivity|]. cbn [p_notes]. intros K n J. apply in_map_iff in J as (m & <- & J). cbn [snd]. rewrite (K m J). reflexivity. }
  destruct I as (Ii & Is & In').
  assert (T : (exists t, inst = Some t /\ t <> 0) -> p_sounding p = Some false).
  { intros (t & -> & NZ). unfold read_hum in R. cbn zeta in R.
    replace (isTransposing _) with true in R by (unfold isTransposing; cbn [p_inst]; replace (t =? 0) with false by (symmetry; apply Z.eqb_neq, NZ); reflexivity).
    cbn [orb] in R. injection R as <-. reflexivity. }
  rewrite <- N at 1. destruct H as [H | H].
  - apply C131_export_partial; [|rewrite (T H); discriminate]. left. split; [exact (T H)|]. rewrite Ii. exact H.
  - destruct (match inst with Some t => t =? 0 | None => true end) eqn:Z0.
    + apply C131_export_partial; [|destruct Is as [-> | ->]; discriminate]. right. split.
      * right. intros t E. rewrite Ii in E. rewrite E in Z0. apply Z.eqb_eq, Z0.
      * intros n t J E. rewrite (In' H n J) in E. discriminate.
    + destruct inst as [t|]; [|discriminate]. assert (H' : exists u, Some t = Some u /\ u <> 0) by (exists t; split; [reflexivity|apply Z.eqb_neq, Z0]).
      apply C131_export_partial; [|rewrite (T H'); discriminate]. left. split; [exact (T H')|]. rewrite Ii. exact H'.
Qed.
Print Assumptions C131_round_partial.

Example C131_round_nonvacuous : exists p, read_hum (Some (-2)) [(60, None); (84, Some Va8)] = Some p /\ write_hum p = Some [(60, None); (84, Some Va8)].
Proof. eexists. split; vm_compute; reflexivity. Qed.

(** False for all other files with octave lines: each note under a line is written
    back as many octaves off as the line says. *)
Theorem C131_round_refuted : forall ns n t, In n ns -> snd n = Some t ->
  exists p, read_hum None ns = Some p /\ write_hum p = Some (map (fun n => (match snd n with Some t => fst n - 12 * octaves t | None => fst n end, snd n)) ns)
    /\ write_hum p <> Some ns.
Proof.
  intros ns n t I E. unfold read_hum. cbn zeta.
  replace (existsb (fun n => match snd n with Some _ => true | None => false end) ns) with true
    by (symmetry; apply existsb_exists; exists n; split; [exact I|rewrite E; reflexivity]).
  rewrite orb_true_r. eexists. split; [reflexivity|].
  assert (W : forall l : list (Z * option otype),
    map (fun n => (fst n, option_map fst (snd n))) (map undo (map (by_inst (-1) (Part (Some true) None (map (fun n => (fst n, option_map (fun t => (t, false)) (snd n))) ns)))
      (map (fun n => (fst n, option_map (fun t => (t, false)) (snd n))) l)))
    = map (fun n => (match snd n with Some t => fst n - 12 * octaves t | None => fst n end, snd n)) l).
  { intros l. rewrite !map_map. apply map_ext. intros [z [u|]]; reflexivity. }
  unfold write_hum, writtenToSounding. cbn [p_sounding p_notes isTransposing p_inst]. rewrite W. split; [reflexivity|]. intros X. injection X as X.
  clear W. induction ns as [|m ns IH]; [destruct I|]. cbn [map] in X. injection X as X1 X2. destruct I as [-> | I]; [|apply IH; assumption].
  rewrite E in X1. destruct n as [z o]. cbn [fst snd] in *. injection X1 as X1. destruct t; cbn [octaves] in X1; lia.
Qed.
Print Assumptions C131_round_refuted.

(** ** C132: transpositions in MEI *)

(** A transposition by [k] octaves, [d] steps and [r] semitones is read as an interval
    of that many steps (a second is one step), up or down, whether or not the octaves
    are in the number of steps. *)
Theorem C132_read : forall k d r, 0 <= k -> 0 <= d -> 0 <= r < 12 -> -1 <= r - d <= 5 ->
  generic (trans_steps (7 * k + d) (12 * k + r)) = 7 * k + d + 1 /\ generic (trans_steps d (12 * k + r)) = 7 * k + d + 1
  /\ (0 < 7 * k + d -> generic (trans_steps (- (7 * k + d)) (- (12 * k + r))) = - (7 * k + d + 1)
                       /\ generic (trans_steps (- d) (- (12 * k + r))) = - (7 * k + d + 1)).
Proof.
  intros k d r K Dp R D. unfold trans_steps, generic.
  assert (Q : Z.abs (12 * k + r) / 12 = k) by (rewrite Z.abs_eq by lia; symmetry; apply (Z.div_unique_pos _ _ _ r); lia).
  assert (Q' : Z.abs (- (12 * k + r)) / 12 = k) by (rewrite Z.abs_opp; exact Q).
  rewrite Q, Q'. repeat split; intros;
    repeat match goal with |- context[if ?b then _ else _] => let E := fresh in destruct b eqn:E end; rewrite ?Z.gtb_ltb, ?Z.ltb_lt, ?Z.ltb_ge in *; lia.
Qed.
Print Assumptions C132_read.
(** A clarinet an octave and a second below: given with and without the octave. *)
Example C132_read_nonvacuous : trans_steps (-1) (-14) = -8 /\ trans_steps (-8) (-14) = -8 /\ generic (-8) = -9.
Proof. vm_compute. repeat split. Qed.

(** What is written never has a transposition, so a part of a transposing instrument at
    written pitch comes back sounding as written: false for every such part. *)
Theorem C132_lost_refuted : forall num p t n, p_sounding p = Some false -> p_inst p = Some t -> t <> 0 -> In n (p_notes p) ->
  p_notes (partThroughMei num p) = p_notes p /\ sound (partThroughMei num p) n = sound p n - t.
Proof.
  intros num p t n S I NZ In'. split; [reflexivity|]. unfold sound, partThroughMei. cbn [p_sounding p_inst]. rewrite S, I.
  change (transFromMei _) with (@None (option str * str)). cbn [option_map]. lia.
Qed.
Print Assumptions C132_lost_refuted.
