(** Facts about the wavy lines of trills in MEI files. *)
From Coq Require Import List ZArith NArith Ascii String Bool Lia Permutation.
From Verif Require Import PyStr PyStrProofs ClefModel MeiIdsModel PropsMeiIds MeiOrnModel MeiOrnProofs.
Import ListNotations.
Local Open Scope nat_scope.
Local Open Scope bool_scope.
Local Open Scope list_scope.

(** ** Writing *)

Lemma mem_nat_In k l : mem_nat k l = true <-> In k l.
Proof.
  unfold mem_nat. rewrite existsb_exists. split; [intros (x & I & E); apply Nat.eqb_eq in E; subst; exact I|].
  intros I. exists k. split; [exact I|apply Nat.eqb_refl].
Qed.
Lemma one_of_In s l : one_of s l = true <-> In s l.
Proof.
  unfold one_of. rewrite existsb_exists. split; [intros (x & I & E); apply str_eqb_eq in E; subst; exact I|].
  intros I. exists s. split; [exact I|apply str_eqb_refl].
Qed.

Lemma write_exts_must staff n e1 up a l e2 : n_exprs n = e1 ++ MTrill up a l :: e2 -> existsb is_trill e1 = false -> existsb is_trill e2 = false ->
  forall xs k w j x, w_trills w = [] -> nth_error xs j = Some x -> is_first x (n_id n) = true -> mem_nat (k + j) (w_exts w) = false ->
  exists y, In y xs /\ is_first y (n_id n) = true /\ w_trills (write_exts staff n k xs w) = [length e1]
    /\ w_elts (write_exts staff n k xs w) = w_elts w ++ [mergedTrill staff (n_id n) (last_id y) up a l (x_look y)].
Proof.
  intros E H1 H2. induction xs as [|x0 xs IH]; intros k w j x D J F N; [destruct j; discriminate|]. cbn [write_exts].
  destruct (is_first x0 (n_id n)) eqn:F0; cbn [andb]; [destruct (mem_nat k (w_exts w)) eqn:M; cbn [negb]; cbv iota|cbv iota].
  - destruct j as [|j]; [rewrite Nat.add_0_r in N; congruence|]. cbn [nth_error] in J. rewrite <- plus_n_Sm in N.
    destruct (IH (S k) w j x D J F N) as (y & I & R). exists y. split; [right; exact I|exact R].
  - rewrite D, E, first_trill_one by assumption. cbn [Nat.add mem_nat existsb]. exists x0.
    rewrite (write_exts_done staff n e1 up a l e2) by (try assumption; reflexivity). cbn [w_trills w_elts].
    split; [left; reflexivity|]. split; [exact F0|]. split; reflexivity.
  - destruct j as [|j]; [cbn [nth_error] in J; congruence|]. cbn [nth_error] in J. rewrite <- plus_n_Sm in N.
    destruct (IH (S k) w j x D J F N) as (y & I & R). exists y. split; [right; exact I|exact R].
Qed.

Lemma write_exts_no staff n : forall xs k w, (forall x, In x xs -> is_first x (n_id n) = false) -> write_exts staff n k xs w = w.
Proof.
  induction xs as [|x xs IH]; intros k w H; [reflexivity|]. cbn [write_exts]. rewrite (H x) by (left; reflexivity). cbn [andb].
  apply IH. intros y Y. apply H. right. exact Y.
Qed.

Lemma write_exts_handled staff n : forall xs k w j, In j (w_exts (write_exts staff n k xs w)) ->
  In j (w_exts w) \/ exists d x, j = k + d /\ nth_error xs d = Some x /\ is_first x (n_id n) = true.
Proof.
  induction xs as [|x xs IH]; intros k w j H; [left; exact H|]. cbn [write_exts] in H. apply IH in H. destruct H as [H | (d & y & -> & E & F)].
  - destruct (is_first x (n_id n)) eqn:F; cbn [andb] in H; [|left; exact H]. destruct (negb _); [|left; exact H].
    destruct (first_trill _ _ _) as [[[[i up] a] l]|]; [|left; exact H]. cbn [w_exts] in H. destruct H as [<- | H]; [|left; exact H].
    right. exists 0, x. split; [lia|]. split; [reflexivity|exact F].
  - right. exists (S d), y. split; [lia|]. split; [exact E|exact F].
Qed.

Lemma find_ext_nth id : forall xs k j x, find_ext id k xs = Some (j, x) -> exists d, j = k + d /\ nth_error xs d = Some x /\ In id (x_elems x).
Proof.
  induction xs as [|y xs IH]; intros k j x H; [discriminate|]. cbn [find_ext] in H. destruct (one_of id (x_elems y)) eqn:E.
  - injection H as <- <-. exists 0. split; [lia|]. split; [reflexivity|apply one_of_In, E].
  - destruct (IH _ _ _ H) as (d & -> & N & I). exists (S d). split; [lia|]. split; [exact N|exact I].
Qed.

Lemma write_exprs_handled staff xs id : forall es i w j, In j (w_exts (write_exprs staff xs id i es w)) ->
  In j (w_exts w) \/ exists x, nth_error xs j = Some x /\ In id (x_elems x).
Proof.
  induction es as [|e es IH]; intros i w j H; [left; exact H|]. cbn [write_exprs] in H. apply IH in H. destruct H as [H | H]; [|right; exact H].
  destruct e as [up a l|up a l|inv u lo d l|inv s l|]; try (left; exact H).
  destruct (mem_nat i (w_trills w)); [left; exact H|]. destruct (find_ext id 0 xs) as [[k x]|] eqn:F; [|left; exact H]. cbn [w_exts] in H.
  destruct H as [<- | H]; [|left; exact H]. right. destruct (find_ext_nth _ _ _ _ _ F) as (d & -> & N & I). exists x. split; [exact N|exact I].
Qed.

(** A trill that is written by itself takes the end of a line the note is in. *)
Definition alone staff xs id (e : elt) : Prop :=
  is_tag "trill" e = true -> exists last up a l, e = trillToMei staff id last up a l
    /\ (last = None \/ exists x, In x xs /\ In id (x_elems x) /\ last = Some (last_id x)).
Lemma write_exprs_alone staff xs id : forall es i w, exists new, w_elts (write_exprs staff xs id i es w) = w_elts w ++ new /\ Forall (alone staff xs id) new.
Proof.
  induction es as [|e es IH]; intros i w; [exists []; split; [symmetry; apply app_nil_r|constructor]|]. cbn [write_exprs].
  match goal with |- context[write_exprs staff xs id (S i) es ?w0] => destruct (IH (S i) w0) as (new & E & F) end. rewrite E.
  destruct e as [up a l|up a l|inv u lo d l|inv s l|]; cbn [w_elts]; rewrite <- ?app_assoc; cbn [app].
  - destruct (mem_nat i (w_trills w)); [exists new; split; [reflexivity|exact F]|].
    destruct (find_ext id 0 xs) as [[k x]|] eqn:G; cbn [w_elts]; rewrite <- app_assoc; cbn [app]; (eexists; split; [reflexivity|]); (constructor; [|exact F]); intros _.
    + destruct (find_ext_nth _ _ _ _ _ G) as (d & _ & N & I). do 4 eexists. split; [reflexivity|]. right. exists x.
      split; [apply (nth_error_In _ _ N)|]. split; [exact I|reflexivity].
    + do 4 eexists. split; [reflexivity|]. left. reflexivity.
  - eexists; split; [reflexivity|]; constructor; [intros T; discriminate T|exact F].
  - eexists; split; [reflexivity|]; constructor; [intros T; discriminate T|exact F].
  - eexists; split; [reflexivity|]; constructor; [intros T; discriminate T|exact F].
  - exists new. split; [reflexivity|exact F].
Qed.

Definition first_id (x : ext) : str := hd [] (x_elems x).
Definition line_of (e : elt) : str * str := (start_of e, end_of e).
Definition lines (es : list elt) : list (str * str) := map line_of (filter has_line (filter (is_tag "trill") es)).
Lemma lines_app l l' : lines (l ++ l') = lines l ++ lines l'.
Proof. unfold lines. rewrite !filter_app, map_app. reflexivity. Qed.

(** The line that starts at a note. *)
Definition line_at (xs : list ext) (i : str) : list (str * str) :=
  match find (fun x => is_first x i) xs with Some x => [(i, last_id x)] | None => [] end.

Section Lines.
  Variable staff : str.
  Variable xs : list ext.
  Hypothesis firsts : NoDup (map first_id xs).
  Hypothesis lasts : forall x, In x xs -> last_id x <> [] /\ last_id x <> first_id x /\ x_elems x <> [].

  Lemma first_is x i : In x xs -> is_first x i = true <-> first_id x = i.
  Proof.
    intros I. destruct (lasts x I) as (_ & _ & N). unfold is_first, first_id. destruct (x_elems x) as [|j l]; [contradiction|]. cbn [hd]. apply str_eqb_eq.
  Qed.
  Lemma first_unique x y i : In x xs -> In y xs -> is_first x i = true -> is_first y i = true -> x = y.
  Proof.
    intros X Y Fx Fy. apply first_is in Fx, Fy; try assumption. clear lasts. induction xs as [|z zs IH]; [destruct X|]. cbn [map] in firsts.
    apply NoDup_cons_iff in firsts as [N D]. destruct X as [-> | X], Y as [-> | Y]; [reflexivity| | |apply IH; assumption].
    - destruct N. rewrite Fx, <- Fy. apply in_map, Y.
    - destruct N. rewrite Fy, <- Fx. apply in_map, X.
  Qed.

  Lemma note_lines w n :
    (forall j x, In j (w_exts w) -> nth_error xs j = Some x -> first_id x <> n_id n) ->
    ((exists x, In x xs /\ first_id x = n_id n) -> length (filter is_trill (n_exprs n)) = 1) ->
    (forall x, In x xs -> In (n_id n) (x_elems x) -> existsb is_trill (n_exprs n) = true -> first_id x = n_id n \/ last_id x = n_id n) ->
    exists new, w_elts (write_note staff xs w n) = w_elts w ++ new /\ lines new = line_at xs (n_id n).
  Proof.
    intros Hd One Mid. unfold write_note. set (w0 := W (w_elts w) (w_exts w) []). unfold line_at.
    destruct (find (fun x => is_first x (n_id n)) xs) as [x|] eqn:Fi.
    - apply find_some in Fi as [Ix Fx].
      assert (L : length (filter is_trill (n_exprs n)) = 1) by (apply One; exists x; split; [exact Ix|apply first_is; assumption]).
      assert (S : exists l1 up a l l2, n_exprs n = l1 ++ MTrill up a l :: l2 /\ existsb is_trill l1 = false /\ existsb is_trill l2 = false).
      { clear - L. induction (n_exprs n) as [|e es IH]; [discriminate|]. cbn [filter] in L. destruct (is_trill e) eqn:T.
        - destruct e as [up a l| | | |]; try discriminate T. exists [], up, a, l, es. split; [reflexivity|]. split; [reflexivity|].
          cbn [length] in L. apply not_true_is_false. intros X. apply existsb_exists in X as (y & I & Y).
          assert (J : In y (filter is_trill es)) by (apply filter_In; split; assumption). destruct (filter is_trill es); [destruct J|cbn [length] in L; lia].
        - destruct (IH L) as (l1 & up & a & l & l2 & -> & A & B). exists (e :: l1), up, a, l, l2. split; [reflexivity|]. split; [cbn [existsb]; rewrite T; exact A|exact B]. }
      destruct S as (l1 & up & a & l & l2 & E & H1 & H2).
      destruct (In_nth_error _ _ Ix) as (j & J).
      assert (N : mem_nat (0 + j) (w_exts w0) = false).
      { apply not_true_is_false. intros M. apply mem_nat_In in M. apply (Hd j x M J). apply first_is; assumption. }
      destruct (write_exts_must staff n l1 up a l l2 E H1 H2 xs 0 w0 j x eq_refl J Fx N) as (y & Iy & Fy & T & El).
      rewrite (first_unique y x (n_id n) Iy Ix Fy Fx) in *. clear y Iy Fy.
      rewrite E, write_exprs_app. cbn [write_exprs].
      destruct (write_exprs_none staff xs (n_id n) l1 0 (write_exts staff n 0 xs w0) H1) as (a1 & A1 & B1 & C1 & _).
      rewrite C1, T. cbn [mem_nat existsb Nat.add]. rewrite Nat.eqb_refl. cbn [orb].
      destruct (write_exprs_none staff xs (n_id n) l2 (S (length l1)) (write_exprs staff xs (n_id n) 0 l1 (write_exts staff n 0 xs w0)) H2) as (a2 & A2 & B2 & _).
      rewrite A2, A1, El. change (w_elts w0) with (w_elts w). rewrite <- !app_assoc. eexists. split; [reflexivity|].
      rewrite !lines_app. assert (L1 : lines a1 = []) by (unfold lines; rewrite B1; reflexivity). assert (L2 : lines a2 = []) by (unfold lines; rewrite B2; reflexivity).
      rewrite L1, L2. unfold lines. cbn [filter]. change (is_tag "trill" (mergedTrill staff (n_id n) (last_id x) up a l (x_look x))) with true. cbn [filter].
      unfold has_line. rewrite end_of_merged. destruct (lasts x Ix) as (N1 & N2 & _). rewrite (proj1 (first_is x (n_id n) Ix) Fx) in N2.
      replace (str_eqb (last_id x) (n_id n)) with false by (symmetry; apply str_eqb_neq, N2). unfold str in *.
      destruct (last_id x) as [|c s] eqn:La; [contradiction|]. cbn [map app]. unfold line_of. rewrite end_of_merged.
      replace (str_eqb (c :: s) (n_id n)) with false by (symmetry; apply str_eqb_neq, N2).
      destruct (get_trill_merged staff (n_id n) (c :: s) up a l (x_look x) _ eq_refl) as (_ & St & _). rewrite St. reflexivity.
    - rewrite write_exts_no by (intros x Ix; apply (find_none _ _ Fi x Ix)).
      destruct (write_exprs_alone staff xs (n_id n) (n_exprs n) 0 w0) as (new & E & F). exists new. split; [exact E|].
      destruct (existsb is_trill (n_exprs n)) eqn:Tr.
      + unfold lines. replace (filter has_line (filter (is_tag "trill") new)) with (@nil elt); [reflexivity|]. symmetry. clear E. induction new as [|e new IH]; [reflexivity|].
        pose proof (Forall_inv F) as A. cbn [filter]. destruct (is_tag "trill" e) eqn:Tg; [|apply IH, (Forall_inv_tail F)].
        destruct (A Tg) as (last & up & a & l & -> & La). cbn [filter]. unfold has_line at 1. rewrite end_of_trill.
        assert (Z : match last with Some l => if str_eqb l (n_id n) then [] else l | None => [] end = []).
        { destruct La as [-> | (x & Ix & In' & ->)]; [reflexivity|]. destruct (Mid x Ix In' eq_refl) as [X | X].
          - apply first_is in X; [|exact Ix]. apply (find_none _ _ Fi x Ix) in X || (pose proof (find_none _ _ Fi x Ix) as Y; cbn beta in Y; congruence).
          - rewrite X, str_eqb_refl. reflexivity. }
        unfold str in *. rewrite Z. apply IH, (Forall_inv_tail F).
      + destruct (write_exprs_none staff xs (n_id n) (n_exprs n) 0 w0 Tr) as (n2' & E2' & B & _).
        replace new with n2' by (apply (app_inv_head (w_elts w0)); congruence). unfold lines. rewrite B. reflexivity.
  Qed.

  Lemma note_handled w n j : In j (w_exts (write_note staff xs w n)) -> In j (w_exts w) \/ exists x, nth_error xs j = Some x /\ In (n_id n) (x_elems x).
  Proof.
    unfold write_note. intros H. apply write_exprs_handled in H. destruct H as [H | H]; [|right; exact H]. apply write_exts_handled in H.
    destruct H as [H | (d & x & -> & N & F)]; [left; exact H|]. right. exists x. split; [exact N|].
    unfold is_first in F. destruct (x_elems x) as [|i l]; [discriminate|]. apply str_eqb_eq in F. rewrite F. left. reflexivity.
  Qed.

  (** A line is begun before its other notes come. *)
  Definition begun (before : list str) (i : str) : Prop := forall x, In x xs -> In i (x_elems x) -> first_id x = i \/ In (first_id x) before.

  Lemma all_lines : forall ns before w,
    NoDup (before ++ map n_id ns) ->
    (forall j x, In j (w_exts w) -> nth_error xs j = Some x -> In (first_id x) before) ->
    (forall n, In n ns -> (exists x, In x xs /\ first_id x = n_id n) -> length (filter is_trill (n_exprs n)) = 1) ->
    (forall n, In n ns -> forall x, In x xs -> In (n_id n) (x_elems x) -> existsb is_trill (n_exprs n) = true -> first_id x = n_id n \/ last_id x = n_id n) ->
    (forall a n c, ns = a ++ n :: c -> begun (before ++ map n_id a) (n_id n)) ->
    lines (w_elts (fold_left (write_note staff xs) ns w)) = lines (w_elts w) ++ flat_map (line_at xs) (map n_id ns).
  Proof.
    induction ns as [|n ns IH]; intros before w D Hd One Mid Bg; [cbn [fold_left flat_map map]; rewrite app_nil_r; reflexivity|]. cbn [fold_left map flat_map].
    cbn [map] in D.
    assert (ND : ~ In (n_id n) before).
    { intros I. apply NoDup_remove_2 in D. apply D. apply in_app_iff. left. exact I. }
    destruct (note_lines w n) as (new & E & L).
    - intros j x J N Q. apply ND. rewrite <- Q. exact (Hd j x J N).
    - apply One. left. reflexivity.
    - apply Mid. left. reflexivity.
    - rewrite (IH (before ++ [n_id n])).
      + rewrite E, lines_app, L, app_assoc. reflexivity.
      + rewrite <- app_assoc. exact D.
      + intros j x J N. apply note_handled in J. apply in_app_iff. destruct J as [J | (x' & N' & I)]; [left; exact (Hd j x J N)|].
        rewrite N in N'. injection N' as <-. destruct (Bg [] n ns eq_refl x (nth_error_In _ _ N) I) as [Q | Q].
        * right. left. symmetry. exact Q.
        * left. cbn [map] in Q. rewrite app_nil_r in Q. exact Q.
      + intros n' I. apply One. right. exact I.
      + intros n' I. apply Mid. right. exact I.
      + intros a n' c ->. rewrite <- app_assoc. cbn [app]. exact (Bg (n :: a) n' c eq_refl).
  Qed.
End Lines.

(** ** Reading *)

Definition spans (es : list elt) : list span := map (fun e => mkSpan (get e "startid" []) (get e "endid" [])) (filter has_line es).

Lemma line_bundle_spans : forall es k, line_bundle k es = bundle k (spans es).
Proof.
  induction es as [|e es IH]; intros k; [reflexivity|]. unfold spans. cbn [line_bundle filter]. destruct (has_line e); [cbn [map bundle]; f_equal|]; apply IH.
Qed.

Lemma line_dec : S_ "m21TrillExtensionStart" <> S_ "m21TrillExtensionEnd". Proof. differs. Qed.

Lemma ppLines_holds n : n <> [] -> forall es k m,
  ppLines k es m n (S_ "m21TrillExtensionStart") = last_of (holds startid n (spans es) k) (m n (S_ "m21TrillExtensionStart")) /\
  ppLines k es m n (S_ "m21TrillExtensionEnd") = last_of (holds endid n (spans es) k) (m n (S_ "m21TrillExtensionEnd")).
Proof.
  intros NE. induction es as [|e es IH]; intros k m; [split; reflexivity|]. unfold spans. cbn [ppLines filter]. destruct (has_line e) eqn:H; [|apply IH].
  cbn [map]. fold (spans es). rewrite !holds_cons, !last_of_cons. cbn [startid endid]. fold (start_of e). fold (end_of e). cbn zeta.
  set (i := start_of e). set (j := end_of e) in *.
  set (q1 := match i with [] => m | _ => setAttr m i (S_ "m21TrillExtensionStart") (show_N k) end).
  destruct (IH (N.succ k) (setAttr q1 j (S_ "m21TrillExtensionEnd") (show_N k))) as [H1 H2]. rewrite H1, H2.
  rewrite (setAttr_other _ _ _ _ _ (S_ "m21TrillExtensionStart")) by (right; exact line_dec).
  assert (E1 : q1 n (S_ "m21TrillExtensionStart") = if str_eqb i n then Some (show_N k) else m n (S_ "m21TrillExtensionStart")).
  { unfold q1. destruct (str_eqb i n) eqn:Q.
    - apply str_eqb_eq in Q. rewrite Q. destruct n; [contradiction|]. apply setAttr_same.
    - apply str_eqb_neq in Q. destruct i; [reflexivity|]. apply setAttr_other. left. congruence. }
  assert (E2 : q1 n (S_ "m21TrillExtensionEnd") = m n (S_ "m21TrillExtensionEnd")).
  { unfold q1. destruct i; [reflexivity|]. apply setAttr_other. right. intros Q. apply line_dec. symmetry. exact Q. }
  rewrite E1. split; [reflexivity|]. f_equal. destruct (str_eqb j n) eqn:Q.
  - apply str_eqb_eq in Q. rewrite Q. apply setAttr_same.
  - apply str_eqb_neq in Q. rewrite setAttr_other by (left; congruence). exact E2.
Qed.

(** A list in the order of a list without repetitions, with two members. *)
Lemma two_of (ids : list str) a b c f l p : NoDup ids -> ids = a ++ f :: b ++ l :: c ->
  (forall i, In i (filter p ids) <-> In i ids /\ (f = i \/ l = i)) -> filter p ids = [f; l].
Proof.
  intros D E H.
  assert (P : forall i, In i ids -> p i = true <-> f = i \/ l = i).
  { intros i I. specialize (H i). rewrite filter_In in H. tauto. }
  assert (Z : forall s, (forall i, In i s -> In i ids /\ f <> i /\ l <> i) -> filter p s = []).
  { induction s as [|i s IH]; intros S; [reflexivity|]. cbn [filter]. destruct (S i (or_introl eq_refl)) as (I & F & L).
    destruct (p i) eqn:Q; [apply P in Q; [tauto|exact I]|]. apply IH. intros j J. apply S. right. exact J. }
  subst ids. rewrite filter_app. cbn [filter]. rewrite filter_app. cbn [filter].
  assert (Ff : p f = true) by (apply P; [apply in_app_iff; right; left; reflexivity|left; reflexivity]).
  assert (Fl : p l = true) by (apply P; [apply in_app_iff; right; right; apply in_app_iff; right; left; reflexivity|right; reflexivity]).
  pose proof (NoDup_remove_2 _ _ _ D) as N1. rewrite app_assoc in N1.
  assert (D2 : NoDup ((a ++ f :: b) ++ l :: c)) by (rewrite <- app_assoc; exact D). pose proof (NoDup_remove_2 _ _ _ D2) as N2.
  rewrite Ff, Fl, !Z; [reflexivity| | |].
  - intros i I. split; [apply in_app_iff; right; right; apply in_app_iff; right; right; exact I|]. split; intros <-.
    + apply N1. apply in_app_iff. right. right. exact I.
    + apply N2. apply in_app_iff. right. exact I.
  - intros i I. split; [apply in_app_iff; right; right; apply in_app_iff; left; exact I|]. split; intros <-.
    + apply N1. apply in_app_iff. left. apply in_app_iff. right. exact I.
    + apply N2. apply in_app_iff. left. apply in_app_iff. right. right. exact I.
  - intros i I. split; [apply in_app_iff; left; exact I|]. split; intros <-.
    + apply N1. apply in_app_iff. left. apply in_app_iff. left. exact I.
    + apply N2. apply in_app_iff. left. apply in_app_iff. left. exact I.
Qed.

Lemma list_nth_ext {A} (l l' : list A) : length l = length l' -> (forall k, k < length l -> nth_error l k = nth_error l' k) -> l = l'.
Proof.
  revert l'. induction l as [|x l IH]; intros [|y l'] L H; try discriminate L; [reflexivity|]. f_equal.
  - specialize (H 0 ltac:(cbn; lia)). cbn in H. congruence.
  - apply IH; [cbn [length] in L; lia|]. intros k K. exact (H (S k) ltac:(cbn [length]; lia)).
Qed.

Lemma addTo_length u n b : length (addTo u n b) = length b.
Proof. induction b as [|[w l] b IH]; [reflexivity|]. cbn [addTo]. destruct (str_eqb w u); cbn [length]; congruence. Qed.
Lemma addTos_length us n : forall b, length (fold_left (fun b u => addTo u n b) us b) = length b.
Proof. induction us as [|u us IH]; intros b; [reflexivity|]. cbn [fold_left]. rewrite IH. apply addTo_length. Qed.
Lemma addLines_length m ns : forall b, length (fold_left (addLines m) ns b) = length b.
Proof. induction ns as [|n ns IH]; intros b; [reflexivity|]. cbn [fold_left]. rewrite IH. apply addTos_length. Qed.
Lemma bundle_length sl : forall k, length (bundle k sl) = length sl.
Proof. induction sl as [|s sl IH]; intros k; [reflexivity|]. cbn [bundle length]. rewrite IH. reflexivity. Qed.

(** Lines with different starts and different ends get their two notes. *)
Lemma lines_read es ids : NoDup ids -> ~ In [] ids ->
  NoDup (map fst (lines es)) -> NoDup (map snd (lines es)) ->
  (forall f l, In (f, l) (lines es) -> exists a b c, ids = a ++ f :: b ++ l :: c) ->
  read_lines es ids = map (fun fl => [fst fl; snd fl]) (lines es).
Proof.
  intros D NE N1 N2 Ord. unfold read_lines. cbn zeta. set (ts := filter (is_tag "trill") es) in *. set (m := preprocess es).
  rewrite line_bundle_spans. set (sp := spans ts).
  assert (LS : lines es = map (fun s => (removeOctothorpe (startid s), removeOctothorpe (endid s))) sp).
  { unfold lines, sp, spans. fold ts. rewrite map_map. reflexivity. }
  rewrite LS in *. rewrite map_map in *. cbn [fst snd] in *.
  assert (O : forall sel, NoDup (map (fun s => removeOctothorpe (sel s)) sp) -> once sel sp).
  { intros sel ND i j s t n Ei Ej Nn Hi Hj. apply names_octothorpe in Hi, Hj.
    assert (Li : i < length sp) by (apply nth_error_Some; congruence).
    apply (proj1 (NoDup_nth_error _) ND); [rewrite map_length; exact Li|]. rewrite !nth_error_map, Ei, Ej. cbn [option_map]. congruence. }
  assert (A : adder (addLines m) (fun n => opt_ids m n (S_ "m21TrillExtensionStart") ++ opt_ids m n (S_ "m21TrillExtensionEnd"))) by (intros b n; reflexivity).
  apply list_nth_ext; [rewrite !map_length, addLines_length, bundle_length; reflexivity|]. intros k K.
  rewrite !map_length, addLines_length, bundle_length in K. destruct (nth_error sp k) as [s|] eqn:E; [|apply nth_error_None in E; lia].
  pose proof (all_nth _ _ A ids _ k _ [] D (fun _ _ I => I) (bundle_nodup sp 0) (bundle_nth sp 0%N k s E)) as R. cbn [app] in R.
  rewrite !nth_error_map, R, E. cbn [option_map snd]. f_equal.
  assert (In (removeOctothorpe (startid s), removeOctothorpe (endid s)) (map (fun s => (removeOctothorpe (startid s), removeOctothorpe (endid s))) sp)) as IL.
  { apply in_map_iff. exists s. split; [reflexivity|exact (nth_error_In _ _ E)]. }
  destruct (Ord _ _ IL) as (a & b & c & Q). apply (two_of ids a b c); [exact D|exact Q|]. intros n. rewrite filter_In.
  split.
  - intros [I H]. split; [exact I|]. assert (NN : n <> []) by (intros ->; contradiction).
    destruct (ppLines_holds n NN ts 0%N (m2 es)) as [H1 H2]. unfold opt_ids, m in H. rewrite !pre_lines in H by inn. fold ts in H. rewrite H1, H2 in H. fold sp in H.
    rewrite !m2_other in H by outside.
    rewrite !opt_last, existsb_app, orb_true_iff, (once_last startid sp n k s NN (O _ N1) E), (once_last endid sp n k s NN (O _ N2) E) in H.
    destruct H as [H | H]; apply names_octothorpe in H; tauto.
  - intros [I H]. split; [exact I|]. assert (NN : n <> []) by (intros ->; contradiction).
    destruct (ppLines_holds n NN ts 0%N (m2 es)) as [H1 H2]. unfold opt_ids, m. rewrite !pre_lines by inn. fold ts. rewrite H1, H2. fold sp.
    rewrite !m2_other by outside.
    rewrite !opt_last, existsb_app, orb_true_iff, (once_last startid sp n k s NN (O _ N1) E), (once_last endid sp n k s NN (O _ N2) E), <- !names_octothorpe. exact H.
Qed.
