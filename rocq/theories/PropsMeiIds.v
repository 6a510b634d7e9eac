(** C108: MEI elements that name notes by their ids. *)
From Coq Require Import ZArith Lia FinFun.
From Verif Require Import PyStr PyStrProofs ChordTieModel PropsChordTie MeiIdsModel.

(** An attribute names the note with the id [n]: the id, with a number sign before it
    or without. *)
Definition names (s n : str) : Prop := s = "#"%char :: n \/ (s = n /\ hd_error n <> Some "#"%char).
Lemma names_octothorpe s n : removeOctothorpe s = n <-> names s n.
Proof.
  unfold names. destruct s as [|c s]; cbn.
  - split; [intros <-; right; cbn; split; [reflexivity|discriminate]|intros [H | [H _]]; [discriminate|exact H]].
  - destruct (Ascii.eqb_spec c "#") as [->|N]; split.
    + intros <-. left. reflexivity.
    + intros [H | [H K]]; [injection H as <-; reflexivity|]. subst n. contradiction K. reflexivity.
    + intros <-. right. split; [reflexivity|]. cbn. congruence.
    + intros [H | [H K]]; [congruence|exact H].
Qed.

(** * Attributes that hold the numbers of spanners. *)
Definition holds (sel : span -> str) (n : str) (sl : list span) (k : N) : list N :=
  let fix go (k : N) (sl : list span) := match sl with
    | [] => []
    | s :: sl' => (if str_eqb (removeOctothorpe (sel s)) n then [k] else []) ++ go (N.succ k) sl'
    end in go k sl.
Lemma holds_cons sel n s sl k : holds sel n (s :: sl) k = (if str_eqb (removeOctothorpe (sel s)) n then [k] else []) ++ holds sel n sl (N.succ k).
Proof. reflexivity. Qed.
Lemma holds_In sel n : forall sl k i s, nth_error sl i = Some s -> (In (k + N.of_nat i)%N (holds sel n sl k) <-> removeOctothorpe (sel s) = n).
Proof.
  assert (L : forall sl k x, In x (holds sel n sl k) -> (k <= x)%N).
  { induction sl as [|s sl IH]; intros k x I; [destruct I|]. rewrite holds_cons in I. apply in_app_iff in I. destruct I as [I | I].
    - destruct (str_eqb _ _); [destruct I as [<- | []]; lia|destruct I].
    - apply IH in I. lia. }
  induction sl as [|t sl IH]; intros k [|i] s E; try discriminate; rewrite holds_cons, in_app_iff.
  - injection E as ->. rewrite N.add_0_r. destruct (str_eqb _ _) eqn:Q.
    + apply str_eqb_eq in Q. cbn. intuition.
    + apply str_eqb_neq in Q. split; [|contradiction]. intros [[] | I]. apply L in I. lia.
  - cbn in E. rewrite <- (IH (N.succ k) i s E). replace (N.succ k + N.of_nat i)%N with (k + N.of_nat (S i))%N by lia.
    split; [intros [I | I]; [|exact I]|intros I; right; exact I]. destruct (str_eqb _ _); [destruct I as [I | []]; lia|destruct I].
Qed.
Definition shown (l : list N) : option str := match l with [] => None | _ => Some (join (S_ ",") (map show_N l)) end.
Lemma join_snoc (sep : str) : forall l x, l <> [] -> join sep (l ++ [x]) = join sep l ++ sep ++ x.
Proof.
  induction l as [|a l IH]; intros x N; [contradiction|]. destruct l as [|b l]; [reflexivity|].
  cbn [app join]. rewrite <- !app_assoc. f_equal. f_equal. apply (IH x). discriminate.
Qed.
Lemma setAttr_same m i a v : setAttr m i a v i a = Some v.
Proof. unfold setAttr. replace (str_eqb i i) with true by (symmetry; apply str_eqb_eq; reflexivity). replace (str_eqb a a) with true by (symmetry; apply str_eqb_eq; reflexivity). reflexivity. Qed.
Lemma setAttr_other m i a v j b : j <> i \/ b <> a -> setAttr m i a v j b = m j b.
Proof.
  intros H. unfold setAttr. destruct (str_eqb j i) eqn:E1, (str_eqb b a) eqn:E2; try reflexivity.
  apply str_eqb_eq in E1, E2. destruct H; contradiction.
Qed.
Lemma addAttr_other m i a v j b : j <> i \/ b <> a -> addAttr m i a v j b = m j b.
Proof. intros H. unfold addAttr. destruct (m i a); apply setAttr_other; exact H. Qed.
Lemma addAttr_shown m i a k l : m i a = shown l -> addAttr m i a (show_N k) i a = shown (l ++ [k]).
Proof.
  intros H. unfold addAttr. rewrite H. destruct l as [|x l]; cbn [shown].
  - rewrite setAttr_same. reflexivity.
  - rewrite setAttr_same. cbn [app]. unfold shown. f_equal. change (x :: l ++ [k]) with ((x :: l) ++ [k]). rewrite map_app.
    symmetry. apply join_snoc. discriminate.
Qed.
Lemma sa_dec : S_ "m21SlurStart" <> S_ "m21SlurEnd". Proof. vm_compute. discriminate. Qed.
Lemma ppSlurs_holds n : n <> [] -> forall sl k m l1 l2,
  m n (S_ "m21SlurStart") = shown l1 -> m n (S_ "m21SlurEnd") = shown l2 ->
  ppSlurs k sl m n (S_ "m21SlurStart") = shown (l1 ++ holds startid n sl k) /\
  ppSlurs k sl m n (S_ "m21SlurEnd") = shown (l2 ++ holds endid n sl k).
Proof.
  intros NE. induction sl as [|s sl IH]; intros k m l1 l2 H1 H2.
  - cbn [ppSlurs holds]. rewrite !app_nil_r. split; assumption.
  - rewrite !holds_cons, !app_assoc. cbn [ppSlurs]. set (i := removeOctothorpe (startid s)). set (j := removeOctothorpe (endid s)).
    clearbody i j. cbn zeta.
    apply IH.
    + set (m1 := match i with [] => m | _ => addAttr m i (S_ "m21SlurStart") (show_N k) end).
      assert (E : m1 n (S_ "m21SlurStart") = shown (l1 ++ if str_eqb i n then [k] else [])).
      { unfold m1. destruct (str_eqb i n) eqn:Q.
        - apply str_eqb_eq in Q. subst i. destruct n as [|c n]; [contradiction|]. apply addAttr_shown. exact H1.
        - apply str_eqb_neq in Q. rewrite app_nil_r. destruct i; [exact H1|]. rewrite addAttr_other; [exact H1|]. left. congruence. }
      destruct j; [exact E|]. rewrite addAttr_other; [exact E|]. right. exact sa_dec.
    + set (m1 := match i with [] => m | _ => addAttr m i (S_ "m21SlurStart") (show_N k) end).
      assert (E : m1 n (S_ "m21SlurEnd") = shown l2).
      { unfold m1. destruct i; [exact H2|]. rewrite addAttr_other; [exact H2|]. right. intros Q. apply sa_dec. symmetry. exact Q. }
      destruct (str_eqb j n) eqn:Q.
      * apply str_eqb_eq in Q. subst j. destruct n as [|c n]; [contradiction|]. apply addAttr_shown. exact E.
      * apply str_eqb_neq in Q. rewrite app_nil_r. destruct j; [exact E|]. rewrite addAttr_other; [exact E|]. left. congruence.
Qed.
Lemma show_N_no_comma k : ~ In ","%char (show_N k).
Proof. intros I. pose proof (show_N_digits k) as D. rewrite forallb_forall in D. specialize (D _ I). discriminate. Qed.
Lemma split_shown l : match shown l with Some (c :: s) => split_char "," (c :: s) | _ => [] end = map show_N l.
Proof.
  destruct l as [|x l]; [reflexivity|]. unfold shown. destruct (join (S_ ",") (map show_N (x :: l))) as [|c s] eqn:E.
  - exfalso. cbn [map] in E. destruct (show_N_cons x) as (c & s & Q & _). rewrite Q in E; destruct (map show_N l); discriminate.
  - rewrite <- E. apply (split_join ","%char); [discriminate|]. apply forallb_forall. intros w I. apply in_map_iff in I. destruct I as (y & <- & _).
    apply negb_true_iff, not_true_is_false. intros C. apply char_in_In in C. exact (show_N_no_comma y C).
Qed.
Lemma ids_start n sl : n <> [] -> ids_at (ppSlurs 0 sl noAttrs) n (S_ "m21SlurStart") = map show_N (holds startid n sl 0).
Proof. intros NE. unfold ids_at. destruct (ppSlurs_holds n NE sl 0%N noAttrs [] [] eq_refl eq_refl) as [-> _]. apply split_shown. Qed.
Lemma ids_end n sl : n <> [] -> ids_at (ppSlurs 0 sl noAttrs) n (S_ "m21SlurEnd") = map show_N (holds endid n sl 0).
Proof. intros NE. unfold ids_at. destruct (ppSlurs_holds n NE sl 0%N noAttrs [] [] eq_refl eq_refl) as [_ ->]. apply split_shown. Qed.

(** * The notes of the spanners. *)
Definition put (n : str) (l : list str) : list str := if existsb (str_eqb n) l then l else l ++ [n].
Lemma addTo_keys u n b : map fst (addTo u n b) = map fst b.
Proof. induction b as [|[w ns] b IH]; [reflexivity|]. cbn. destruct (str_eqb w u); cbn; [reflexivity|]. f_equal. exact IH. Qed.
Lemma addTo_nth u n : forall b i w l, NoDup (map fst b) -> nth_error b i = Some (w, l) ->
  nth_error (addTo u n b) i = Some (w, if str_eqb w u then put n l else l).
Proof.
  induction b as [|[w0 l0] b IH]; intros [|i] w l D E; try discriminate; cbn in E; cbn [addTo].
  - injection E as -> ->. destruct (str_eqb w u); reflexivity.
  - cbn in D. inversion D as [|? ? D1 D2]; subst. destruct (str_eqb w0 u) eqn:Q.
    + cbn. rewrite E. apply str_eqb_eq in Q. subst w0. replace (str_eqb w u) with false; [reflexivity|].
      symmetry. apply str_eqb_neq. intros ->. apply D1. apply nth_error_In in E. apply (in_map fst) in E. exact E.
    + cbn. apply IH; assumption.
Qed.
Lemma put_put n l : put n (put n l) = put n l.
Proof.
  unfold put. destruct (existsb (str_eqb n) l) eqn:E; [rewrite E; reflexivity|].
  rewrite existsb_app. cbn. replace (str_eqb n n) with true by (symmetry; apply str_eqb_eq; reflexivity). rewrite orb_true_r. reflexivity.
Qed.
Lemma addMany_keys n : forall us b, map fst (fold_left (fun b u => addTo u n b) us b) = map fst b.
Proof. induction us as [|u us IH]; intros b; [reflexivity|]. cbn. rewrite IH. apply addTo_keys. Qed.
Lemma addMany_nth n : forall us b i w l, NoDup (map fst b) -> nth_error b i = Some (w, l) ->
  nth_error (fold_left (fun b u => addTo u n b) us b) i = Some (w, if existsb (str_eqb w) us then put n l else l).
Proof.
  induction us as [|u us IH]; intros b i w l D E; [exact E|]. cbn [fold_left existsb].
  rewrite (IH _ i w (if str_eqb w u then put n l else l)).
  - f_equal. f_equal. destruct (str_eqb w u), (existsb (str_eqb w) us); cbn; try reflexivity. apply put_put.
  - rewrite addTo_keys. exact D.
  - apply addTo_nth; assumption.
Qed.
(** A way of adding notes for which it is known which spanners a note goes to. *)
Definition adder (add : list (str * list str) -> str -> list (str * list str)) (us : str -> list str) : Prop :=
  forall b n, add b n = fold_left (fun b u => addTo u n b) (us n) b.
Lemma put_new n l : ~ In n l -> put n l = l ++ [n].
Proof.
  intros N. unfold put. replace (existsb (str_eqb n) l) with false; [reflexivity|]. symmetry. apply not_true_is_false. intros E.
  apply existsb_exists in E. destruct E as (x & I & Q). apply str_eqb_eq in Q. subst x. contradiction.
Qed.
Lemma all_nth add us : adder add us -> forall ns b i w l, NoDup ns -> (forall n, In n ns -> ~ In n l) ->
  NoDup (map fst b) -> nth_error b i = Some (w, l) ->
  nth_error (fold_left add ns b) i = Some (w, l ++ filter (fun n => existsb (str_eqb w) (us n)) ns).
Proof.
  intros A. induction ns as [|n ns IH]; intros b i w l DN NI D E; [cbn; rewrite app_nil_r; exact E|].
  inversion DN as [|? ? D1 D2]; subst. cbn [fold_left filter]. rewrite (A b n).
  pose proof (addMany_nth n (us n) b i w l D E) as E2. destruct (existsb (str_eqb w) (us n)).
  - rewrite put_new in E2 by (apply NI; left; reflexivity). rewrite (IH _ i w (l ++ [n])); try assumption.
    + rewrite <- app_assoc. reflexivity.
    + intros m I1 I2. apply in_app_iff in I2. destruct I2 as [I2 | [-> | []]]; [|contradiction]. apply (NI m); [right; exact I1|exact I2].
    + rewrite addMany_keys. exact D.
  - apply IH; try assumption.
    + intros m I1. apply NI. right. exact I1.
    + rewrite addMany_keys. exact D.
Qed.
Lemma bundle_nth : forall sl k i s, nth_error sl i = Some s -> nth_error (bundle k sl) i = Some (show_N (k + N.of_nat i), []).
Proof.
  induction sl as [|t sl IH]; intros k [|i] s E; try discriminate; cbn [bundle nth_error].
  - rewrite N.add_0_r. reflexivity.
  - cbn in E. rewrite (IH (N.succ k) i s E). do 2 f_equal. f_equal. lia.
Qed.
Lemma bundle_keys : forall sl k, map fst (bundle k sl) = map (fun i => show_N (k + N.of_nat i)) (seq 0 (length sl)).
Proof.
  induction sl as [|s sl IH]; intros k; [reflexivity|]. cbn [bundle map length seq fst]. rewrite N.add_0_r. f_equal. rewrite IH, <- seq_shift, map_map.
  apply map_ext. intros i. f_equal. lia.
Qed.
Lemma bundle_nodup sl k : NoDup (map fst (bundle k sl)).
Proof.
  rewrite bundle_keys. apply Injective_map_NoDup; [|apply seq_NoDup]. intros i j E. apply show_N_inj in E. lia.
Qed.
Lemma existsb_show (x : N) l : existsb (str_eqb (show_N x)) (map show_N l) = true <-> In x l.
Proof.
  rewrite existsb_exists. split.
  - intros (y & I & Q). apply str_eqb_eq in Q. apply in_map_iff in I. destruct I as (z & <- & I). apply show_N_inj in Q. subst z. exact I.
  - intros I. exists (show_N x). split; [apply in_map; exact I|]. apply str_eqb_eq. reflexivity.
Qed.

(** Each slur gets its notes, however many slurs there are at a note, in the order in
    which the notes are read. *)
Theorem C108_slurs : forall sl ns k s, NoDup ns -> ~ In [] ns -> nth_error sl k = Some s ->
  exists l, nth_error (readSlurs sl ns) k = Some l /\
    (forall n, In n l <-> In n ns /\ (names (startid s) n \/ names (endid s) n)) /\
    (exists p, l = filter p ns).
Proof.
  intros sl ns k s D NE E. set (m := ppSlurs 0 sl noAttrs).
  assert (A : adder (addSlurs m) (fun n => ids_at m n (S_ "m21SlurStart") ++ ids_at m n (S_ "m21SlurEnd"))) by (intros b n; reflexivity).
  pose proof (all_nth _ _ A ns _ k _ [] D (fun _ _ I => I) (bundle_nodup sl 0) (bundle_nth sl 0%N k s E)) as R.
  cbn [app] in R. eexists. split; [|split].
  - unfold readSlurs. fold m. rewrite nth_error_map, R. reflexivity.
  - intros n. cbn [snd]. rewrite filter_In. split; intros [I Q]; (split; [exact I|]).
    + assert (NN : n <> []) by (intros ->; contradiction). unfold m in Q. rewrite existsb_app, ids_start, ids_end in Q by exact NN.
      apply orb_true_iff in Q. rewrite !existsb_show, !(holds_In _ n sl 0%N k s E) in Q. rewrite !names_octothorpe in Q. exact Q.
    + assert (NN : n <> []) by (intros ->; contradiction). unfold m. rewrite existsb_app, ids_start, ids_end by exact NN.
      apply orb_true_iff. rewrite !existsb_show, !(holds_In _ n sl 0%N k s E), !names_octothorpe. exact Q.
  - eexists. reflexivity.
Qed.
Print Assumptions C108_slurs.
Example C108_slurs_nonvacuous :
  readSlurs [mkSpan (S_ "#a") (S_ "#b"); mkSpan (S_ "#a") (S_ "#c"); mkSpan (S_ "#b") (S_ "#c")] [S_ "a"; S_ "b"; S_ "c"] =
  [[S_ "a"; S_ "b"]; [S_ "a"; S_ "c"]; [S_ "b"; S_ "c"]].
Proof. vm_compute. reflexivity. Qed.

(** So a slur goes from its first note to its last, if they are read in this order... *)
Theorem C108_slur_ends : forall sl a b c k s n1 n2, NoDup (a ++ n1 :: b ++ n2 :: c) -> ~ In [] (a ++ n1 :: b ++ n2 :: c) ->
  nth_error sl k = Some s -> names (startid s) n1 -> names (endid s) n2 ->
  nth_error (readSlurs sl (a ++ n1 :: b ++ n2 :: c)) k = Some [n1; n2].
Proof.
  intros sl a b c k s n1 n2 D NE E S1 S2. destruct (C108_slurs sl _ k s D NE E) as (l & -> & L & (p & ->)). f_equal.
  assert (P : forall n, In n (a ++ n1 :: b ++ n2 :: c) -> (p n = true <-> n = n1 \/ n = n2)).
  { intros n I. specialize (L n). rewrite filter_In in L. apply names_octothorpe in S1, S2. rewrite <- !names_octothorpe, S1, S2 in L.
    split; [intros Q; destruct (proj1 L (conj I Q)) as [_ [-> | ->]]; auto|]. intros Q. apply L. split; [exact I|]. destruct Q as [-> | ->]; auto. }
  assert (F : forall x, (forall n, In n x -> In n (a ++ n1 :: b ++ n2 :: c) /\ n <> n1 /\ n <> n2) -> filter p x = []).
  { induction x as [|n x IH]; intros X; [reflexivity|]. cbn. destruct (X n (or_introl eq_refl)) as (I & N1 & N2).
    destruct (p n) eqn:Q; [apply (P n I) in Q; tauto|]. apply IH. intros m M. apply X. right. exact M. }
  assert (D1 : ~ In n1 (a ++ b ++ n2 :: c)) by (apply NoDup_remove_2 in D; exact D).
  assert (D2 : ~ In n2 ((a ++ n1 :: b) ++ c)) by (change (a ++ n1 :: b ++ n2 :: c) with (a ++ (n1 :: b) ++ n2 :: c) in D; rewrite app_assoc in D; apply NoDup_remove_2 in D; exact D).
  rewrite !in_app_iff in D1, D2. cbn in D1, D2.
  rewrite filter_app. cbn [filter]. rewrite (proj2 (P n1 ltac:(rewrite in_app_iff; cbn; auto)) (or_introl eq_refl)).
  rewrite filter_app. cbn [filter]. rewrite (proj2 (P n2 ltac:(rewrite !in_app_iff; cbn; rewrite in_app_iff; cbn; auto)) (or_intror eq_refl)).
  rewrite (F a), (F b), (F c); [reflexivity| | |]; intros n I; rewrite !in_app_iff; cbn; rewrite in_app_iff; cbn;
    (split; [auto|]); split; intros ->; tauto.
Qed.
Print Assumptions C108_slur_ends.
Example C108_slur_ends_nonvacuous :
  nth_error (readSlurs [mkSpan (S_ "b") (S_ "#d")] [S_ "a"; S_ "b"; S_ "c"; S_ "d"]) 0 = Some [S_ "b"; S_ "d"].
Proof. eapply (C108_slur_ends _ [S_ "a"] [S_ "c"] [] 0); try reflexivity.
  - repeat constructor; cbn; intuition discriminate.
  - cbn. intuition discriminate.
  - right. split; [reflexivity|]. discriminate.
  - left. reflexivity.
Qed.

(** ...but a slur whose last note is read before the first, as from the lower staff up
    to the upper staff within a measure, gets its ends exchanged. *)
Theorem C108_order_refuted : exists sl ns, NoDup ns /\ sl = [mkSpan (S_ "#low") (S_ "#high")] /\ ns = [S_ "high"; S_ "low"] /\
  readSlurs sl ns = [[S_ "high"; S_ "low"]].
Proof.
  eexists _, _. split; [|split; [reflexivity|split; [reflexivity|vm_compute; reflexivity]]].
  repeat constructor; cbn; intuition discriminate.
Qed.
Print Assumptions C108_order_refuted.

(** * Hairpins: each note keeps only the last that starts there, and the last that
    ends there. *)
Lemma ha_dec : S_ "m21HairpinStart" <> S_ "m21HairpinEnd". Proof. vm_compute. discriminate. Qed.
Definition last_of (l : list N) (old : option str) : option str := match rev l with [] => old | k :: _ => Some (show_N k) end.
Lemma last_of_cons b k l old : last_of ((if b : bool then [k] else []) ++ l) old = last_of l (if b then Some (show_N k) else old).
Proof.
  unfold last_of. destruct b; [|reflexivity]. cbn [app rev]. destruct (rev l); reflexivity.
Qed.
Lemma ppHairpins_holds n : n <> [] -> forall hs k m,
  ppHairpins k hs m n (S_ "m21HairpinStart") = last_of (holds startid n hs k) (m n (S_ "m21HairpinStart")) /\
  ppHairpins k hs m n (S_ "m21HairpinEnd") = last_of (holds endid n hs k) (m n (S_ "m21HairpinEnd")).
Proof.
  intros NE. induction hs as [|s hs IH]; intros k m; [split; reflexivity|].
  rewrite !holds_cons, !last_of_cons. cbn [ppHairpins]. set (i := removeOctothorpe (startid s)). set (j := removeOctothorpe (endid s)). clearbody i j. cbn zeta.
  set (m1 := match i with [] => m | _ => setAttr m i (S_ "m21HairpinStart") (show_N k) end).
  set (m2 := match j with [] => m1 | _ => setAttr m1 j (S_ "m21HairpinEnd") (show_N k) end).
  assert (E1 : m1 n (S_ "m21HairpinStart") = if str_eqb i n then Some (show_N k) else m n (S_ "m21HairpinStart")).
  { unfold m1. destruct (str_eqb i n) eqn:Q.
    - apply str_eqb_eq in Q. subst i. destruct n; [contradiction|]. apply setAttr_same.
    - apply str_eqb_neq in Q. destruct i; [reflexivity|]. apply setAttr_other. left. congruence. }
  assert (E2 : m1 n (S_ "m21HairpinEnd") = m n (S_ "m21HairpinEnd")).
  { unfold m1. destruct i; [reflexivity|]. apply setAttr_other. right. intros Q. apply ha_dec. symmetry. exact Q. }
  destruct (IH (N.succ k) m2) as [-> ->]. split; f_equal; unfold m2.
  - rewrite <- E1. destruct j; [reflexivity|]. apply setAttr_other. right. exact ha_dec.
  - rewrite <- E2. destruct (str_eqb j n) eqn:Q.
    + apply str_eqb_eq in Q. subst j. destruct n; [contradiction|]. apply setAttr_same.
    + apply str_eqb_neq in Q. destruct j; [reflexivity|]. apply setAttr_other. left. congruence.
Qed.
Lemma opt_last l : match last_of l None with Some (c :: s) => [c :: s] | _ => [] end = match rev l with [] => [] | k :: _ => [show_N k] end.
Proof.
  unfold last_of. destruct (rev l) as [|k r]; [reflexivity|]. destruct (show_N_cons k) as (c & s & -> & _). reflexivity.
Qed.
(** If at most one hairpin starts at each note, and at most one ends there, they get
    their notes as slurs do. *)
Definition once (sel : span -> str) (hs : list span) : Prop :=
  forall i j s t n, nth_error hs i = Some s -> nth_error hs j = Some t -> n <> [] -> names (sel s) n -> names (sel t) n -> i = j.
Lemma holds_bound sel n : forall sl k x, In x (holds sel n sl k) -> exists i s, x = (k + N.of_nat i)%N /\ nth_error sl i = Some s.
Proof.
  induction sl as [|s sl IH]; intros k x I; [destruct I|]. rewrite holds_cons, in_app_iff in I. destruct I as [I | I].
  - destruct (str_eqb _ _); [|destruct I]. destruct I as [<- | []]. exists 0, s. split; [lia|reflexivity].
  - destruct (IH _ _ I) as (i & t & -> & E). exists (S i), t. split; [lia|exact E].
Qed.
Lemma once_last sel hs n k s : n <> [] -> once sel hs -> nth_error hs k = Some s ->
  (existsb (str_eqb (show_N (0 + N.of_nat k))) match rev (holds sel n hs 0) with [] => [] | x :: _ => [show_N x] end = true <-> names (sel s) n).
Proof.
  intros NE O E. rewrite <- names_octothorpe, <- (holds_In sel n hs 0%N k s E).
  assert (U : forall x y, In x (holds sel n hs 0%N) -> In y (holds sel n hs 0%N) -> x = y).
  { intros x y X Y. destruct (holds_bound _ _ _ _ _ X) as (i & t & -> & Ei). destruct (holds_bound _ _ _ _ _ Y) as (j & u & -> & Ej).
    apply (holds_In sel n hs 0%N i t Ei) in X. apply (holds_In sel n hs 0%N j u Ej) in Y. apply names_octothorpe in X, Y.
    rewrite (O i j t u n Ei Ej NE X Y). reflexivity. }
  split.
  - destruct (rev (holds sel n hs 0)) as [|x r] eqn:R; [discriminate|]. intros Q. apply (existsb_show _ [x]) in Q. destruct Q as [<- | []].
    apply in_rev. rewrite R. left. reflexivity.
  - intros I. destruct (rev (holds sel n hs 0)) as [|x r] eqn:R; [apply in_rev in I; rewrite R in I; destruct I|].
    apply (existsb_show _ [x]). left. apply U; [|exact I]. apply in_rev. rewrite R. left. reflexivity.
Qed.
Theorem C108_hairpins_partial : forall hs ns k s, NoDup ns -> ~ In [] ns -> once startid hs -> once endid hs -> nth_error hs k = Some s ->
  exists l, nth_error (readHairpins hs ns) k = Some l /\
    (forall n, In n l <-> In n ns /\ (names (startid s) n \/ names (endid s) n)) /\
    (exists p, l = filter p ns).
Proof.
  intros hs ns k s D NE O1 O2 E. set (m := ppHairpins 0 hs noAttrs).
  assert (A : adder (addHairpins m) (fun n => opt_ids m n (S_ "m21HairpinStart") ++ opt_ids m n (S_ "m21HairpinEnd"))) by (intros b n; reflexivity).
  pose proof (all_nth _ _ A ns _ k _ [] D (fun _ _ I => I) (bundle_nodup hs 0) (bundle_nth hs 0%N k s E)) as R.
  cbn [app] in R. eexists. split; [|split].
  - unfold readHairpins. fold m. rewrite nth_error_map, R. reflexivity.
  - intros n. cbn [snd]. rewrite filter_In.
    assert (Q : In n ns -> existsb (str_eqb (show_N (0 + N.of_nat k))) (opt_ids m n (S_ "m21HairpinStart") ++ opt_ids m n (S_ "m21HairpinEnd")) = true
                <-> names (startid s) n \/ names (endid s) n).
    { intros I. assert (NN : n <> []) by (intros ->; contradiction). destruct (ppHairpins_holds n NN hs 0%N noAttrs) as [H1 H2]. unfold opt_ids, m.
      rewrite H1, H2. unfold noAttrs. rewrite !opt_last, existsb_app, orb_true_iff, (once_last startid hs n k s NN O1 E), (once_last endid hs n k s NN O2 E). reflexivity. }
    tauto.
  - eexists. reflexivity.
Qed.
Print Assumptions C108_hairpins_partial.
Example C108_hairpins_nonvacuous :
  readHairpins [mkSpan (S_ "#a") (S_ "#b"); mkSpan (S_ "#b") (S_ "#c")] [S_ "a"; S_ "b"; S_ "c"] = [[S_ "a"; S_ "b"]; [S_ "b"; S_ "c"]].
Proof. vm_compute. reflexivity. Qed.
(** Of two hairpins that start at the same note the first loses its start. *)
Theorem C108_hairpins_refuted : exists hs ns, NoDup ns /\ hs = [mkSpan (S_ "#a") (S_ "#b"); mkSpan (S_ "#a") (S_ "#c")] /\
  ns = [S_ "a"; S_ "b"; S_ "c"] /\ readHairpins hs ns = [[S_ "b"]; [S_ "a"; S_ "c"]].
Proof.
  eexists _, _. split; [|split; [reflexivity|split; [reflexivity|vm_compute; reflexivity]]].
  repeat constructor; cbn; intuition discriminate.
Qed.
Print Assumptions C108_hairpins_refuted.

(** * Ties. *)
Definition tie_starts (ts : list span) (n : str) : Prop := exists t e, In t ts /\ names (startid t) n /\ names (endid t) e /\ e <> [].
Definition tie_ends (ts : list span) (n : str) : Prop := exists t b, In t ts /\ names (endid t) n /\ names (startid t) b /\ b <> [].
Definition tie_state (m : attrs) (n : str) (st en : Prop) : Prop :=
  (m n (S_ "tie") = None /\ ~ st /\ ~ en) \/ (m n (S_ "tie") = Some (S_ "i") /\ st /\ ~ en) \/
  (m n (S_ "tie") = Some (S_ "t") /\ ~ st /\ en) \/ ((m n (S_ "tie") = Some (S_ "it") \/ m n (S_ "tie") = Some (S_ "ti")) /\ st /\ en).
Lemma tie_state_iff m n st en st' en' : (st <-> st') -> (en <-> en') -> tie_state m n st en -> tie_state m n st' en'.
Proof. unfold tie_state. tauto. Qed.
Lemma is_attr_at (m : attrs) i v : is_attr m i (S_ "tie") v = true <-> m i (S_ "tie") = Some v.
Proof.
  unfold is_attr. destruct (m i (S_ "tie")) as [w|]; [|split; discriminate]. rewrite str_eqb_eq. split; congruence.
Qed.
Definition mark_start (m : attrs) (i : str) : attrs :=
  if is_attr m i (S_ "tie") (S_ "t") then setAttr m i (S_ "tie") (S_ "ti") else setAttr m i (S_ "tie") (S_ "i").
Definition mark_end (m : attrs) (j : str) : attrs :=
  if is_attr m j (S_ "tie") (S_ "i") then setAttr m j (S_ "tie") (S_ "it") else setAttr m j (S_ "tie") (S_ "t").
Lemma mark_start_other m i n : i <> n -> mark_start m i n (S_ "tie") = m n (S_ "tie").
Proof. intros N. unfold mark_start. destruct (is_attr _ _ _ _); apply setAttr_other; left; congruence. Qed.
Lemma mark_end_other m i n : i <> n -> mark_end m i n (S_ "tie") = m n (S_ "tie").
Proof. intros N. unfold mark_end. destruct (is_attr _ _ _ _); apply setAttr_other; left; congruence. Qed.
Lemma mark_start_state m n st en : ~ st -> tie_state m n st en -> tie_state (mark_start m n) n True en.
Proof.
  intros NS H. unfold tie_state, mark_start. destruct (is_attr m n (S_ "tie") (S_ "t")) eqn:Q.
  - apply is_attr_at in Q. rewrite setAttr_same. destruct H as [[H _] | [[H _] | [[_ H] | [_ [H _]]]]]; try (rewrite Q in H; discriminate); tauto.
  - rewrite setAttr_same. destruct H as [[_ H] | [[_ [H _]] | [[H _] | [_ [H _]]]]]; [tauto|contradiction|apply is_attr_at in H; congruence|contradiction].
Qed.
Lemma mark_end_state m n st en : ~ en -> tie_state m n st en -> tie_state (mark_end m n) n st True.
Proof.
  intros NS H. unfold tie_state, mark_end. destruct (is_attr m n (S_ "tie") (S_ "i")) eqn:Q.
  - apply is_attr_at in Q. rewrite setAttr_same. destruct H as [[H _] | [[_ H] | [[H _] | [_ [_ H]]]]]; try (rewrite Q in H; discriminate); tauto.
  - rewrite setAttr_same. destruct H as [[_ H] | [[H _] | [[_ [_ H]] | [_ [_ H]]]]]; [tauto|apply is_attr_at in H; congruence|contradiction|contradiction].
Qed.
Lemma once_tl sel x hs : once sel (x :: hs) -> once sel hs /\ forall y n, In y hs -> n <> [] -> names (sel x) n -> ~ names (sel y) n.
Proof.
  intros O. split.
  - intros i j s t n E1 E2 NE N1 N2. pose proof (O (S i) (S j) s t n E1 E2 NE N1 N2). lia.
  - intros y n I NE N1 N2. apply In_nth_error in I. destruct I as (i & E). pose proof (O 0 (S i) x y n eq_refl E NE N1 N2). discriminate.
Qed.
Lemma ppTies_state n : n <> [] -> forall ts m (st en : Prop), once startid ts -> once endid ts ->
  (st -> ~ tie_starts ts n) -> (en -> ~ tie_ends ts n) -> tie_state m n st en ->
  tie_state (fold_left ppTie ts m) n (st \/ tie_starts ts n) (en \/ tie_ends ts n).
Proof.
  intros NE. induction ts as [|t ts IH]; intros m st en O1 O2 H1 H2 H.
  - cbn. revert H. apply tie_state_iff; (split; [tauto|]); intros [X | (t & e & [] & _)]; exact X.
  - destruct (once_tl _ _ _ O1) as [O1' U1]. destruct (once_tl _ _ _ O2) as [O2' U2]. cbn [fold_left].
    assert (Q1 : tie_starts (t :: ts) n <-> (removeOctothorpe (startid t) = n /\ removeOctothorpe (endid t) <> []) \/ tie_starts ts n).
    { split.
      - intros (u & e & [<- | I] & A & B & C); [left|right; exists u, e; auto]. apply names_octothorpe in A, B. rewrite B. auto.
      - intros [[A B] | (u & e & I & A)]; [exists t, (removeOctothorpe (endid t)); split; [left; reflexivity|]; rewrite <- !names_octothorpe; auto|exists u, e; split; [right; exact I|exact A]]. }
    assert (Q2 : tie_ends (t :: ts) n <-> (removeOctothorpe (endid t) = n /\ removeOctothorpe (startid t) <> []) \/ tie_ends ts n).
    { split.
      - intros (u & e & [<- | I] & A & B & C); [left|right; exists u, e; auto]. apply names_octothorpe in A, B. rewrite B. auto.
      - intros [[A B] | (u & e & I & A)]; [exists t, (removeOctothorpe (startid t)); split; [left; reflexivity|]; rewrite <- !names_octothorpe; auto|exists u, e; split; [right; exact I|exact A]]. }
    assert (V1 : removeOctothorpe (startid t) = n -> ~ tie_starts ts n).
    { intros A (u & e & I & B & _). apply names_octothorpe in A. exact (U1 u n I NE A B). }
    assert (V2 : removeOctothorpe (endid t) = n -> ~ tie_ends ts n).
    { intros A (u & e & I & B & _). apply names_octothorpe in A. exact (U2 u n I NE A B). }
    clear O1 O2 U1 U2. revert Q1 Q2 V1 V2. unfold ppTie at 2. set (i := removeOctothorpe (startid t)). set (j := removeOctothorpe (endid t)). clearbody i j.
    intros Q1 Q2 V1 V2.
    eapply tie_state_iff; [| |apply (IH _ (st \/ (i = n /\ j <> [])) (en \/ (j = n /\ i <> [])) O1' O2')]; [tauto|tauto|tauto|tauto|].
    cbn zeta. destruct i as [|ci i]; [revert H; apply tie_state_iff; (split; [tauto|]); intros [X | [X1 X2]]; [exact X|congruence|exact X|congruence]|].
    destruct j as [|cj j]; [revert H; apply tie_state_iff; (split; [tauto|]); intros [X | [X1 X2]]; [exact X|congruence|exact X|congruence]|].
    fold (mark_start m (ci :: i)). fold (mark_end (mark_start m (ci :: i)) (cj :: j)).
    assert (R1 : tie_state (mark_start m (ci :: i)) n (st \/ (ci :: i = n /\ cj :: j <> [])) en).
    { destruct (list_eq_dec ascii_dec (ci :: i) n) as [E | E].
      - rewrite E. eapply tie_state_iff; [| |apply (mark_start_state m n st en); [|exact H]]; [split; [intros _; right; split; [reflexivity|discriminate]|tauto]|tauto|].
        intros X. apply (H1 X). apply Q1. left. split; [exact E|discriminate].
      - unfold tie_state. rewrite mark_start_other by exact E. fold (tie_state m n (st \/ (ci :: i = n /\ cj :: j <> [])) en). revert H. apply tie_state_iff; tauto. }
    destruct (list_eq_dec ascii_dec (cj :: j) n) as [E | E].
    + rewrite E in R1 |- *. eapply tie_state_iff; [| |apply (mark_end_state _ n _ en); [|exact R1]]; [tauto|split; [intros _; right; split; [reflexivity|discriminate]|tauto]|].
      intros X. apply (H2 X). apply Q2. left. split; [exact E|discriminate].
    + unfold tie_state. rewrite mark_end_other by exact E. fold (tie_state (mark_start m (ci :: i)) n (st \/ (ci :: i = n /\ cj :: j <> [])) (en \/ (cj :: j = n /\ ci :: i <> []))).
      revert R1. apply tie_state_iff; tauto.
Qed.
(** If at most one tie starts at each note, and at most one ends there, a note says
    afterwards what it said before and what the ties say. *)
Theorem C108_ties_partial : forall ts n old, n <> [] -> once startid ts -> once endid ts ->
  match conclude (ppTies ts) n (S_ "tie") old with
  | None => old = None /\ ~ tie_starts ts n /\ ~ tie_ends ts n
  | Some v =>
      let o := match old with Some o => o | None => [] end in
      (In "i"%char v <-> In "i"%char o \/ tie_starts ts n) /\
      (In "t"%char v <-> In "t"%char o \/ tie_ends ts n) /\
      (In "m"%char v <-> In "m"%char o)
  end.
Proof.
  intros ts n old NE O1 O2.
  assert (H : tie_state (ppTies ts) n (False \/ tie_starts ts n) (False \/ tie_ends ts n)).
  { apply ppTies_state; try assumption; try contradiction. left. split; [reflexivity|tauto]. }
  unfold conclude. assert (A : forall o v : str, match Some o with Some o => o ++ v | None => v end = o ++ v) by reflexivity.
  destruct H as [[-> H] | [[-> H] | [[-> H] | [[-> | ->] H]]]]; [destruct old; [cbn zeta|]; tauto| | | |];
    (destruct old as [o|]; cbn zeta; [rewrite !in_app_iff|]; cbn; intuition congruence).
Qed.
Print Assumptions C108_ties_partial.
Example C108_ties_nonvacuous :
  let m := ppTies [mkSpan (S_ "#a") (S_ "#b"); mkSpan (S_ "#b") (S_ "#c")] in
  map (fun n => conclude m n (S_ "tie") None) [S_ "a"; S_ "b"; S_ "c"; S_ "d"] = [Some (S_ "i"); Some (S_ "ti"); Some (S_ "t"); None].
Proof. vm_compute. reflexivity. Qed.
(** A second tie that ends on a note hides that another starts there. *)
Theorem C108_ties_refuted : exists ts n, n <> [] /\ once startid ts /\ tie_starts ts n /\
  conclude (ppTies ts) n (S_ "tie") None = Some (S_ "t") /\ tieFromAttr (S_ "t") = KStop.
Proof.
  exists [mkSpan (S_ "#b") (S_ "#c"); mkSpan (S_ "#a1") (S_ "#b"); mkSpan (S_ "#a2") (S_ "#b")], (S_ "b").
  split; [discriminate|]. split; [|split; [|split; vm_compute; reflexivity]].
  - intros i j s t n E1 E2 NE N1 N2. apply names_octothorpe in N1, N2.
    destruct i as [|[|[|i]]], j as [|[|[|j]]]; cbn in E1, E2; try discriminate; try reflexivity; try (destruct i; discriminate); try (destruct j; discriminate);
      injection E1 as <-; injection E2 as <-; rewrite <- N1 in N2; discriminate.
  - exists (mkSpan (S_ "#b") (S_ "#c")), (S_ "c"). split; [left; reflexivity|]. split; [left; reflexivity|]. split; [left; reflexivity|discriminate].
Qed.
Print Assumptions C108_ties_refuted.

(** * Beams: every <beamSpan> that names its first note or its last is left out. *)
Theorem C108_beams_lost : forall xs, Forall (fun x => startid (fst x) <> [] \/ endid (fst x) <> []) xs ->
  forall n, ppBeams xs n (S_ "m21Beam") = None.
Proof.
  intros xs F n. unfold ppBeams. assert (E : forall m, fold_left ppBeam xs m = m).
  { induction F as [|[s p] xs H F IH]; intros m; [reflexivity|]. cbn [fold_left]. rewrite IH. unfold ppBeam. cbn in *.
    destruct (startid s) as [|a b], (endid s) as [|c d]; try reflexivity. destruct H; contradiction. }
  rewrite E. reflexivity.
Qed.
Print Assumptions C108_beams_lost.
Theorem C108_beams_refuted : exists x n1 n2, names (startid (fst x)) n1 /\ names (endid (fst x)) n2 /\
  snd x = S_ "#b1 #b2" /\ n1 = S_ "b1" /\ n2 = S_ "b2" /\
  ppBeams [x] n1 (S_ "m21Beam") = None /\ ppBeams [x] n2 (S_ "m21Beam") = None.
Proof.
  exists (mkSpan (S_ "#b1") (S_ "#b2"), S_ "#b1 #b2"), (S_ "b1"), (S_ "b2").
  repeat split; left; reflexivity.
Qed.
Print Assumptions C108_beams_refuted.

(** One that names neither is not skipped: all notes in its list are marked, but as
    notes in the middle of a beam. *)
Theorem C108_beams_bare : forall x n, startid (fst x) = [] -> endid (fst x) = [] -> n <> [] ->
  ((exists p, In p (split_char " " (snd x)) /\ names p n) -> ppBeams [x] n (S_ "m21Beam") = Some (S_ "continue")) /\
  (~ (exists p, In p (split_char " " (snd x)) /\ names p n) -> ppBeams [x] n (S_ "m21Beam") = None).
Proof.
  intros [s pl] n E1 E2 NE. cbn [fst snd] in *. unfold ppBeams. cbn [fold_left]. unfold ppBeam. cbn [fst snd]. rewrite E1, E2. cbn zeta.
  set (m0 := setAttr (setAttr noAttrs (removeOctothorpe []) (S_ "m21Beam") (S_ "start")) (removeOctothorpe []) (S_ "m21Beam") (S_ "stop")).
  assert (M : m0 n (S_ "m21Beam") = None) by (unfold m0; rewrite !setAttr_other by (left; cbn; exact NE); reflexivity). clearbody m0.
  generalize dependent m0. generalize (split_char " " pl). intros ps.
  set (f := fun (m : attrs) i => match m (removeOctothorpe i) (S_ "m21Beam") with None => setAttr m (removeOctothorpe i) (S_ "m21Beam") (S_ "continue") | Some _ => m end).
  assert (K : forall ps m, m n (S_ "m21Beam") = Some (S_ "continue") -> fold_left f ps m n (S_ "m21Beam") = Some (S_ "continue")).
  { clear ps. induction ps as [|p ps IH]; intros m H; [exact H|]. cbn [fold_left]. apply IH. unfold f. destruct (m (removeOctothorpe p) (S_ "m21Beam")) eqn:Q; [exact H|].
    rewrite setAttr_other; [exact H|]. left. intros X. rewrite <- X in Q. congruence. }
  induction ps as [|p ps IH]; intros m H; [split; [intros (p & [] & _)|intros _; exact H]|]. cbn [fold_left].
  destruct (list_eq_dec ascii_dec (removeOctothorpe p) n) as [E | E].
  - split; [intros _; apply K; unfold f; rewrite E, H; apply setAttr_same|].
    intros N. exfalso. apply N. exists p. split; [left; reflexivity|apply names_octothorpe; exact E].
  - assert (H' : f m p n (S_ "m21Beam") = None).
    { unfold f. destruct (m (removeOctothorpe p) (S_ "m21Beam")); [exact H|]. rewrite setAttr_other; [exact H|]. left. congruence. }
    destruct (IH (f m p) H') as [I1 I2]. split.
    + intros (q & [<- | I] & Q); [apply names_octothorpe in Q; contradiction|]. apply I1. exists q. auto.
    + intros N. apply I2. intros (q & I & Q). apply N. exists q. split; [right; exact I|exact Q].
Qed.
Print Assumptions C108_beams_bare.
Example C108_beams_bare_nonvacuous : ppBeams [(mkSpan [] [], S_ "#b1 #b2")] (S_ "b2") (S_ "m21Beam") = Some (S_ "continue").
Proof. vm_compute. reflexivity. Qed.

(** * Tuplets: every note in the list gets the numbers, [3] and [2] if they are not
    given, from the last element that lists it. *)
Definition lists (t : tspan) (n : str) : Prop := exists p, In p (split_char " " (ts_plist t)) /\ names p n.
Lemma tn_dec : S_ "m21TupletNum" <> S_ "m21TupletNumbase". Proof. vm_compute. discriminate. Qed.
Lemma ppTuplet_at m t n : n <> [] ->
  (~ lists t n -> forall a, ppTuplet m t n a = m n a) /\
  (lists t n -> ppTuplet m t n (S_ "m21TupletNum") = Some (match ts_num t with [] => S_ "3" | x => x end) /\
                ppTuplet m t n (S_ "m21TupletNumbase") = Some (match ts_numbase t with [] => S_ "2" | x => x end)).
Proof.
  intros NE. unfold lists, ppTuplet. generalize (split_char " " (ts_plist t)). intros ps.
  assert (K : forall num base ps m,
    let r := fold_left (fun m i0 => match removeOctothorpe i0 with [] => m | _ => setAttr (setAttr m (removeOctothorpe i0) (S_ "m21TupletNum") num) (removeOctothorpe i0) (S_ "m21TupletNumbase") base end) ps m in
    ((forall p, In p ps -> removeOctothorpe p <> n) -> forall a, r n a = m n a) /\
    ((exists p, In p ps /\ removeOctothorpe p = n) \/ (m n (S_ "m21TupletNum") = Some num /\ m n (S_ "m21TupletNumbase") = Some base) ->
      r n (S_ "m21TupletNum") = Some num /\ r n (S_ "m21TupletNumbase") = Some base)).
  { clear ps m. intros num base. induction ps as [|p ps IH]; intros m; cbn zeta; cbn [fold_left].
    - split; [reflexivity|]. intros [(p & [] & _) | H]; exact H.
    - destruct (IH (match removeOctothorpe p with [] => m | _ => setAttr (setAttr m (removeOctothorpe p) (S_ "m21TupletNum") num) (removeOctothorpe p) (S_ "m21TupletNumbase") base end)) as [I1 I2]. split.
      + intros N a. rewrite I1 by (intros q Q; apply N; right; exact Q). specialize (N p (or_introl eq_refl)).
        destruct (removeOctothorpe p) eqn:E; [reflexivity|]. rewrite !setAttr_other by (left; congruence). reflexivity.
      + intros H. apply I2. destruct (list_eq_dec ascii_dec (removeOctothorpe p) n) as [E | E].
        * rewrite E. destruct n as [|c n]; [contradiction|]. right. rewrite setAttr_same. split; [|reflexivity]. rewrite setAttr_other by (right; exact tn_dec). apply setAttr_same.
        * destruct H as [(q & [-> | Q] & H) | H]; [contradiction|left; exists q; auto|right].
          destruct (removeOctothorpe p) eqn:E'; [exact H|]. rewrite !setAttr_other by (left; congruence). exact H. }
  specialize (K (match ts_num t with [] => S_ "3" | _ => ts_num t end) (match ts_numbase t with [] => S_ "2" | _ => ts_numbase t end) ps m).
  cbn zeta in K. destruct K as [K1 K2]. split.
  - intros N a. apply K1. intros p I Q. apply N. exists p. split; [exact I|]. apply names_octothorpe. exact Q.
  - intros (p & I & Q). destruct K2 as [-> ->]; [left; exists p; split; [exact I|apply names_octothorpe; exact Q]|].
    split; [destruct (ts_num t)|destruct (ts_numbase t)]; reflexivity.
Qed.
Theorem C108_tuplets : forall ts1 t ts2 n, n <> [] -> lists t n -> (forall u, In u ts2 -> ~ lists u n) ->
  let m := ppTuplets (ts1 ++ t :: ts2) in
  m n (S_ "m21TupletNum") = Some (match ts_num t with [] => S_ "3" | x => x end) /\
  m n (S_ "m21TupletNumbase") = Some (match ts_numbase t with [] => S_ "2" | x => x end).
Proof.
  intros ts1 t ts2 n NE L N. cbn zeta. unfold ppTuplets. rewrite fold_left_app. cbn [fold_left]. set (m1 := fold_left ppTuplet ts1 noAttrs).
  assert (E : forall m a, fold_left ppTuplet ts2 m n a = m n a).
  { clear - NE N. induction ts2 as [|u ts2 IH]; intros m a; [reflexivity|]. cbn [fold_left]. rewrite IH by (intros v V; apply N; right; exact V).
    apply ppTuplet_at; [exact NE|]. apply N. left. reflexivity. }
  rewrite !E. apply ppTuplet_at; assumption.
Qed.
Print Assumptions C108_tuplets.
Theorem C108_no_tuplets : forall ts n a, n <> [] -> (forall u, In u ts -> ~ lists u n) -> ppTuplets ts n a = None.
Proof.
  intros ts n a NE N. unfold ppTuplets. change None with (noAttrs n a). generalize noAttrs. induction ts as [|u ts IH]; intros m; [reflexivity|].
  cbn [fold_left]. rewrite IH by (intros v V; apply N; right; exact V). apply ppTuplet_at; [exact NE|]. apply N. left. reflexivity.
Qed.
Print Assumptions C108_no_tuplets.
Example C108_tuplets_nonvacuous :
  let m := ppTuplets [mkTS (S_ "#a #b") (S_ "5") (S_ "4"); mkTS (S_ "#c") [] []] in
  m (S_ "b") (S_ "m21TupletNum") = Some (S_ "5") /\ m (S_ "c") (S_ "m21TupletNumbase") = Some (S_ "2") /\ m (S_ "d") (S_ "m21TupletNum") = None.
Proof. vm_compute. auto. Qed.
