(** C136: the elements <tupletSpan> of MEI files with a first and a last note. *)
From Coq Require Import ZArith QArith Lia.
From Verif Require Import PyStr PyStrProofs DateModel MeiIdsModel PropsMeiIds MeiOrnProofs MeiTupletModel PropsMeiTuplet.
Local Close Scope Q_scope.

(** * Words of the statements. *)
(** A layer: notes outside of tuplets, and tuplets with the first note, those between
    and the last one. *)
Inductive seg := Outside (l : list note) | Spanned (s : sp) (x : note) (l : list note) (y : note).
Definition seg_notes (g : seg) : list note := match g with Outside l => l | Spanned _ x l y => x :: l ++ [y] end.
(** An attribute; the nearest span, from here to the front, that has it. *)
Definition given (v : str) : option str := match v with [] => None | _ => Some v end.
Fixpoint nearest (f : sp -> str) (l : list sp) : option str :=
  match l with [] => None | s :: l' => match f s with [] => nearest f l' | v => Some v end end.
(** The attributes of the span [s] that comes after the spans [prev] (nearest first). *)
Definition says (s : sp) (prev : list sp) : tattrs :=
  mkTA (given (sp_num s)) (given (sp_base s)) (nearest sp_bv (s :: prev)) (nearest sp_bp (s :: prev))
       (nearest sp_nv (s :: prev)) (nearest sp_np (s :: prev)) (nearest sp_nf (s :: prev)).
(** Each note of a layer with its tuplet and its part in it. *)
Fixpoint roles (prev : list sp) (gs : list seg) : list (note * option (tattrs * option ttype)) :=
  match gs with
  | [] => []
  | Outside l :: gs' => map (fun x => (x, None)) l ++ roles prev gs'
  | Spanned s x l y :: gs' =>
      let a := says s prev in
      (x, Some (a, Some Start)) :: map (fun z => (z, Some (a, None))) l ++ (y, Some (a, Some Stop)) :: roles (s :: prev) gs'
  end.
Definition role_read (r : note * option (tattrs * option ttype)) (o : obj) : Prop :=
  let '(x, w) := r in
  o_note o = x /\ o_vis o = n_vis x /\
  match n_kind x, w with
  | Dur, Some (a, ty) => exists t, o_tups o = [t] /\ number 3 (a_num a) (t_num t) /\ number 2 (a_base a) (t_base t) /\
      looks a t /\ t_type t = ty /\ (sounding o == own_length x * (inject_Z (t_base t) / inject_Z (t_num t)))%Q
  | _, _ => o_tups o = [] /\ o_ges o = n_ges x
  end.
(** The span [s] of the file begins with the note [x], ends with [y], and no other span
    names these. *)
Definition spans_notes (ss : list sp) (s : sp) (x y : note) : Prop :=
  In s ss /\ sp_plist s = None /\ (exists b e, sp_start s = Some b /\ sp_end s = Some e /\ names b (n_id x) /\ names e (n_id y)) /\
  n_id x <> n_id y /\ n_kind x = Dur /\ n_kind y = Dur /\
  (forall t, In t ss -> names_note t (n_id x) \/ names_note t (n_id y) -> t = s) /\
  (exists n d, number 3 (given (sp_num s)) n /\ number 2 (given (sp_base s)) d /\ (0 < n)%Z /\ (0 < d)%Z).
(** No span names the note, and its own attribute begins or ends no tuplet. *)
Definition unnamed (ss : list sp) (x : note) : Prop :=
  n_kind x <> Other -> no_tuplet_attr x /\ forall s, In s ss -> ~ names_note s (n_id x).
Definition seg_ok (ss : list sp) (g : seg) : Prop :=
  match g with
  | Outside l => forall x, In x l -> unnamed ss x
  | Spanned s x l y => spans_notes ss s x y /\ forall z, In z l -> unnamed ss z
  end.

(** * The attributes of the first and the last note. *)
Definition span_attrs (s : sp) : tattrs :=
  mkTA (Some (default (S_ "3") (sp_num s))) (Some (default (S_ "2") (sp_base s))) (given (sp_bv s)) (given (sp_bp s))
       (given (sp_nv s)) (given (sp_np s)) (given (sp_nf s)).
Lemma setIf_name m i a v b : b <> a -> setIf m i a v i b = m i b.
Proof. intros H. unfold setIf. destruct v; [reflexivity|]. apply setAttr_other. right. exact H. Qed.
Lemma setIf_given m i a v : m i a = None \/ m i a = given v -> setIf m i a v i a = given v.
Proof. intros H. unfold setIf. destruct v as [|c v]; [destruct H as [H | H]; exact H|]. apply setAttr_same. Qed.
Definition unset_or (m : attrs) (i : str) (s : sp) : Prop :=
  (attrs_at m i = noTA \/ attrs_at m i = span_attrs s).
Lemma setSpan_at m i s : unset_or m i s -> attrs_at (setSpan m i s) i = span_attrs s.
Proof.
  intros H.
  assert (K : (m i (S_ "m21TupletBracketVisible") = None \/ m i (S_ "m21TupletBracketVisible") = given (sp_bv s)) /\
              (m i (S_ "m21TupletBracketPlace") = None \/ m i (S_ "m21TupletBracketPlace") = given (sp_bp s)) /\
              (m i (S_ "m21TupletNumVisible") = None \/ m i (S_ "m21TupletNumVisible") = given (sp_nv s)) /\
              (m i (S_ "m21TupletNumPlace") = None \/ m i (S_ "m21TupletNumPlace") = given (sp_np s)) /\
              (m i (S_ "m21TupletNumFormat") = None \/ m i (S_ "m21TupletNumFormat") = given (sp_nf s))).
  { unfold unset_or, attrs_at, noTA, span_attrs in H. destruct H as [H | H]; injection H as H1 H2 H3 H4 H5 H6 H7; auto 10. }
  clear H. destruct K as (K1 & K2 & K3 & K4 & K5).
  unfold attrs_at, span_attrs, setSpan. cbn zeta. f_equal.
  all: repeat first [rewrite setIf_name by differs | rewrite setAttr_same; reflexivity | rewrite setAttr_other by (right; differs)].
  all: apply setIf_given; repeat first [rewrite setIf_name by differs | rewrite setAttr_other by (right; differs)]; assumption.
Qed.
Lemma setSpan_search m i s j : search_at (setSpan m i s) j = search_at m j.
Proof.
  unfold search_at, setSpan. cbn zeta. unfold setIf.
  destruct (sp_bv s), (sp_bp s), (sp_nv s), (sp_np s), (sp_nf s); repeat rewrite setAttr_other by (right; differs); reflexivity.
Qed.
Lemma set_search_attrs m i v j : attrs_at (setAttr m i (S_ "m21TupletSearch") v) j = attrs_at m j.
Proof. unfold attrs_at. f_equal; apply setAttr_other; right; differs. Qed.
Lemma attrs_setSpan_other m i s j : j <> i -> attrs_at (setSpan m i s) j = attrs_at m j.
Proof. intros H. unfold attrs_at. f_equal; apply setSpan_other; exact H. Qed.
Lemma ppSpan_ends m s x y b e : sp_plist s = None -> sp_start s = Some b -> sp_end s = Some e -> names b x -> names e y -> x <> y ->
  unset_or m x s -> unset_or m y s ->
  (search_at (ppSpan m s) x = Some (S_ "start") /\ attrs_at (ppSpan m s) x = span_attrs s) /\
  (search_at (ppSpan m s) y = Some (S_ "end") /\ attrs_at (ppSpan m s) y = span_attrs s).
Proof.
  intros P B E Nb Ne NE Hx Hy. apply names_octothorpe in Nb, Ne. unfold ppSpan. rewrite P, B, E, Nb, Ne. cbn zeta. split; split.
  - rewrite setSpan_search. unfold search_at. rewrite setAttr_other by (left; exact NE). change (search_at (setSpan (setAttr m x (S_ "m21TupletSearch") (S_ "start")) x s) x = Some (S_ "start")).
    rewrite setSpan_search. apply setAttr_same.
  - rewrite attrs_setSpan_other by exact NE. rewrite set_search_attrs. apply setSpan_at. unfold unset_or. rewrite set_search_attrs. exact Hx.
  - rewrite setSpan_search. apply setAttr_same.
  - apply setSpan_at. unfold unset_or. rewrite set_search_attrs. rewrite attrs_setSpan_other by congruence. rewrite set_search_attrs. exact Hy.
Qed.
Lemma attrs_other m s i : ~ names_note s i -> attrs_at (ppSpan m s) i = attrs_at m i.
Proof. intros H. unfold attrs_at. f_equal; apply ppSpan_other; exact H. Qed.
Lemma names_start s x y b e : sp_plist s = None -> sp_start s = Some b -> sp_end s = Some e -> names b x -> names e y -> names_note s x /\ names_note s y.
Proof. intros P B E Nb Ne. unfold names_note. rewrite P. split; exists b, e; auto. Qed.
Definition sp_eq_dec (s t : sp) : {s = t} + {s <> t}.
Proof. repeat decide equality. Defined.
Lemma ppSpans_ends s x y b e : sp_plist s = None -> sp_start s = Some b -> sp_end s = Some e -> names b x -> names e y -> x <> y ->
  forall ss m, (forall t, In t ss -> names_note t x \/ names_note t y -> t = s) -> unset_or m x s -> unset_or m y s ->
  (In s ss \/ (search_at m x = Some (S_ "start") /\ attrs_at m x = span_attrs s) /\ (search_at m y = Some (S_ "end") /\ attrs_at m y = span_attrs s)) ->
  (search_at (fold_left ppSpan ss m) x = Some (S_ "start") /\ attrs_at (fold_left ppSpan ss m) x = span_attrs s) /\
  (search_at (fold_left ppSpan ss m) y = Some (S_ "end") /\ attrs_at (fold_left ppSpan ss m) y = span_attrs s).
Proof.
  intros P B E Nb Ne NE. destruct (names_start s x y b e P B E Nb Ne) as [NX NY]. induction ss as [|t ss IH]; intros m U Hx Hy C.
  - destruct C as [[] | C]. exact C.
  - cbn [fold_left]. destruct (sp_eq_dec t s) as [->|N].
    + destruct (ppSpan_ends m s x y b e P B E Nb Ne NE Hx Hy) as [D1 D2].
      apply IH; [intros t I; apply U; right; exact I|right; apply D1|right; apply D2|right; split; assumption].
    + assert (N1 : ~ names_note t x) by (intros K; apply N; apply U; [left; reflexivity|left; exact K]).
      assert (N2 : ~ names_note t y) by (intros K; apply N; apply U; [left; reflexivity|right; exact K]).
      apply IH; [intros u I; apply U; right; exact I|unfold unset_or; rewrite attrs_other by exact N1; exact Hx|unfold unset_or; rewrite attrs_other by exact N2; exact Hy|].
      destruct C as [[C | C] | C]; [congruence|left; exact C|right]. unfold search_at in *. rewrite !attrs_other by assumption. rewrite !ppSpan_other by assumption. exact C.
Qed.

(** * The notes are read one after the other. *)
Fixpoint read_notes (m : attrs) (xs : list note) (n : Z) : option (Z * list obj) :=
  match xs with
  | [] => Some (n, [])
  | x :: xs' =>
      match read_leaf m n x with
      | None => None
      | Some (n1, o) => match read_notes m xs' n1 with Some (n2, os) => Some (n2, o :: os) | None => None end
      end
  end.
Definition alone (x : note) : note * list place := (x, []).
Lemma read_notes_app m : forall u v n, read_notes m (u ++ v) n =
  match read_notes m u n with
  | None => None
  | Some (n1, os) => match read_notes m v n1 with Some (n2, os') => Some (n2, os ++ os') | None => None end
  end.
Proof.
  induction u as [|x u IH]; intros v n; cbn [app read_notes].
  - destruct (read_notes m v n) as [[n2 os]|]; reflexivity.
  - destruct (read_leaf m n x) as [[n1 o]|]; [|reflexivity]. rewrite IH. destruct (read_notes m u n1) as [[n2 os]|]; [|reflexivity].
    destruct (read_notes m v n2) as [[n3 os']|]; reflexivity.
Qed.
Lemma reads_alone m es : Forall (fun e => forall xs n, inside_of e = map alone xs -> read_el m e n = read_notes m xs n) es ->
  forall xs n, flat_map inside_of es = map alone xs -> reads m es n = read_notes m xs n.
Proof.
  induction 1 as [|e es He _ IH]; intros xs n H; cbn [flat_map reads] in *.
  - destruct xs; [reflexivity|discriminate].
  - symmetry in H. apply map_eq_app in H. destruct H as (u & v & -> & H1 & H2). rewrite (He u n) by (symmetry; exact H1). rewrite read_notes_app.
    destruct (read_notes m u n) as [[n1 os]|]; [|reflexivity]. rewrite (IH v n1) by (symmetry; exact H2). reflexivity.
Qed.
Lemma read_alone m e : forall xs n, inside_of e = map alone xs -> read_el m e n = read_notes m xs n.
Proof.
  induction e as [x|es IH|a es IH] using el_rect'; intros xs n H.
  - destruct xs as [|y [|z xs]]; try discriminate. injection H as <-. cbn [read_el read_notes]. destruct (read_leaf m n x) as [[n1 o]|]; reflexivity.
  - rewrite read_beam. exact (reads_alone m es IH xs n H).
  - cbn [inside_of] in H. destruct (flat_map inside_of es) as [|[x p] ps] eqn:E.
    + destruct xs; [|discriminate]. rewrite read_tup, (reads_alone m es IH [] (n + 1)%Z E). cbn [read_notes tuplet_of scale_list length first_dur].
      f_equal. f_equal. lia.
    + cbn [mark] in H. destruct xs; [discriminate|]. injection H as _ H _. destruct p; discriminate.
Qed.
Definition reads_to (m : attrs) (x : note) (o : obj) : Prop := forall n, exists n', read_leaf m n x = Some (n', o).
Lemma read_notes_to m : forall xs os n, Forall2 (reads_to m) xs os -> exists n', read_notes m xs n = Some (n', os).
Proof.
  intros xs os n F. revert n. induction F as [|x o xs os H F IH]; intros n; [exists n; reflexivity|]. cbn [read_notes].
  destruct (H n) as (n1 & ->). destruct (IH n1) as (n2 & ->). exists n2. reflexivity.
Qed.

(** * The search. *)
Definition fresh (x : note) (st : option (str * tattrs)) : obj := mkObj x (n_vis x) (n_ges x) [] st.
Lemma reads_unnamed ss x : unnamed ss x -> reads_to (ppSpans ss) x (fresh x None).
Proof.
  intros U n. exists n. unfold read_leaf. destruct (n_kind x) eqn:K; [| |reflexivity];
    destruct (U ltac:(congruence)) as [[U1 U2] U3]; unfold search_at, attrs_at, ppSpans; cbn [a_num]; rewrite !ppSpans_other by exact U3;
    unfold noAttrs; rewrite (starts_with_hd _ _ U1), (starts_with_hd _ _ U2); cbn [is_v]; destruct (n =? 0)%Z; reflexivity.
Qed.
Lemma reads_named m x w s : n_kind x = Dur -> search_at m (n_id x) = Some w -> attrs_at m (n_id x) = span_attrs s ->
  reads_to m x (fresh x (Some (w, span_attrs s))).
Proof.
  intros K S A n. eexists. unfold read_leaf. rewrite K, S, A. cbn [a_num span_attrs]. reflexivity.
Qed.
(** What is in the layer before the search. *)
Definition seg_objs (g : seg) : list obj :=
  match g with
  | Outside l => map (fun x => fresh x None) l
  | Spanned s x l y => fresh x (Some (S_ "start", span_attrs s)) :: map (fun z => fresh z None) l ++ [fresh y (Some (S_ "end", span_attrs s))]
  end.
Lemma Forall2_map_r {A B} (R : A -> B -> Prop) f l : (forall x, In x l -> R x (f x)) -> Forall2 R l (map f l).
Proof. induction l as [|x l IH]; intros H; cbn; constructor; [apply H; left; reflexivity|apply IH; intros y I; apply H; right; exact I]. Qed.
Lemma seg_reads ss g : seg_ok ss g -> Forall2 (reads_to (ppSpans ss)) (seg_notes g) (seg_objs g).
Proof.
  destruct g as [l|s x l y]; cbn [seg_ok seg_notes seg_objs]; intros H.
  - apply Forall2_map_r. intros x I. apply reads_unnamed. apply H. exact I.
  - destruct H as [(I & P & (b & e & B & E & Nb & Ne) & NE & Kx & Ky & U & _) L].
    destruct (ppSpans_ends s (n_id x) (n_id y) b e P B E Nb Ne NE ss noAttrs U (or_introl eq_refl) (or_introl eq_refl) (or_introl I)) as [[X1 X2] [Y1 Y2]].
    constructor; [exact (reads_named _ _ _ _ Kx X1 X2)|]. apply Forall2_app; [|constructor; [exact (reads_named _ _ _ _ Ky Y1 Y2)|constructor]].
    apply Forall2_map_r. intros z Iz. apply reads_unnamed. apply L. exact Iz.
Qed.
Lemma append_stash a ty x st : append_tup a ty (fresh x st) =
  match append_tup a ty (fresh x None) with Some o => Some (mkObj (o_note o) (o_vis o) (o_ges o) (o_tups o) st) | None => None end.
Proof.
  unfold append_tup, fresh. cbn [o_ges o_note o_vis o_tups o_stash].
  destruct (a_num a) as [[|c1 s1]|]; try reflexivity. destruct (a_base a) as [[|c2 s2]|]; try reflexivity.
  destruct (py_int (c1 :: s1)); [|reflexivity]. destruct (py_int (c2 :: s2)); [|reflexivity]. destruct (n_ges x); reflexivity.
Qed.
Lemma fresh_full x : full (x, []) (fresh x None).
Proof.
  unfold full, fresh. cbn. repeat (split; [reflexivity|]). split; [split; reflexivity|]. intros _. destruct (n_ges x) as [g|].
  - split; [constructor|]. exists g, []. repeat split; [constructor|]. cbn. ring.
  - split; [reflexivity|constructor].
Qed.
(** A note of a tuplet. *)
Definition filled (a : tattrs) : tattrs :=
  mkTA (match a_num a with None => Some (S_ "3") | y => y end) (match a_base a with None => Some (S_ "2") | y => y end)
       (a_bv a) (a_bp a) (a_nv a) (a_np a) (a_nf a).
Definition one_tuplet (x : note) (a : tattrs) (ty : option ttype) (o : obj) : Prop :=
  o_note o = x /\ o_vis o = n_vis x /\ exists t, o_tups o = [t] /\ number 3 (a_num a) (t_num t) /\ number 2 (a_base a) (t_base t) /\
      looks a t /\ t_type t = ty /\ (sounding o == own_length x * (inject_Z (t_base t) / inject_Z (t_num t)))%Q.
Lemma append_one a x ty n d : n_kind x = Dur -> number 3 (a_num a) n -> number 2 (a_base a) d ->
  exists o, append_tup (filled a) ty (fresh x None) = Some o /\ one_tuplet x a ty o /\ o_stash o = None.
Proof.
  intros K H1 H2.
  destruct (append_half a ty x [] (fresh x None) 0 0 n d K (fresh_full x) (number_not_empty _ _ _ H1) (number_not_empty _ _ _ H2) H1 H2) as (o & E & H).
  exists o. split; [exact E|]. destruct H as (N & V & St & _ & D). split; [|exact St]. split; [exact N|]. split; [exact V|].
  destruct (D K) as (p0 & e & ts & t & Ep & Et & Ht & R). destruct p0 as [|q p0]; [|destruct p0; discriminate]. injection Ep as <-.
  destruct Ht as (T1 & T2 & T3 & T4).
  assert (M : forall z, number 3 (a_num a) z -> z = t_num t).
  { intros z Z. unfold number in Z, T1. destruct (a_num a); congruence. }
  assert (M2 : forall z, number 2 (a_base a) z -> z = t_base t).
  { intros z Z. unfold number in Z, T2. destruct (a_base a); congruence. }
  exists t. unfold sounding, own_length. destruct (n_ges x) as [g|].
  - destruct R as [-> (g' & qs & G & F & Q)]. rewrite G. repeat (split; [assumption|]). rewrite Q.
    destruct qs as [|q qs]; [inversion F|]. apply Forall2_cons_inv in F. destruct F as [(u & v & U & W & Eq) F]. destruct qs; [|inversion F].
    apply M in U. apply M2 in W. cbn [fst] in *. subst u v. cbn [product fold_right]. rewrite Eq. ring.
  - destruct R as [G R]. destruct ts as [|t0 ts]; [|inversion R]. rewrite G. repeat (split; [assumption|]). rewrite Et, V. cbn [app map product fold_right]. unfold mult. ring.
Qed.
Lemma set_type ty x a u o : one_tuplet x a u o -> exists o', set_first ty (no_stash o) = Some o' /\ one_tuplet x a (Some ty) o' /\ o_stash o' = None.
Proof.
  intros (N & V & t & Et & T1 & T2 & T3 & T4 & Q). unfold set_first, no_stash. cbn [o_tups o_note o_vis o_ges o_stash]. rewrite Et.
  eexists. split; [reflexivity|]. split; [|reflexivity]. split; [exact N|]. split; [exact V|]. eexists. split; [reflexivity|].
  cbn [t_num t_base t_type]. split; [exact T1|]. split; [exact T2|]. split; [exact T3|]. split; [reflexivity|].
  rewrite <- Q. unfold sounding. cbn [o_ges o_vis o_tups]. rewrite Et. reflexivity.
Qed.
(** The attributes that were taken last. *)
Definition display_is (cur : tattrs) (prev : list sp) : Prop :=
  a_bv cur = nearest sp_bv prev /\ a_bp cur = nearest sp_bp prev /\ a_nv cur = nearest sp_nv prev /\
  a_np cur = nearest sp_np prev /\ a_nf cur = nearest sp_nf prev.
Lemma over_given f s prev : over (given (f s)) (nearest f prev) = nearest f (s :: prev).
Proof. cbn [nearest]. destruct (f s); reflexivity. Qed.
Lemma take_says s prev cur : display_is cur prev -> take (span_attrs s) cur = filled (says s prev).
Proof.
  intros (H1 & H2 & H3 & H4 & H5). unfold take, filled, says, span_attrs. cbn [a_num a_base a_bv a_bp a_nv a_np a_nf].
  rewrite H1, H2, H3, H4, H5, !over_given. unfold given, default. destruct (sp_num s), (sp_base s); reflexivity.
Qed.
Lemma guess_outside : forall l cur os, guess false cur (map (fun x => fresh x None) l ++ os) =
  match guess false cur os with Some r => Some (map (fun x => fresh x None) l ++ r) | None => None end.
Proof.
  induction l as [|x l IH]; intros cur os; cbn [map app guess]; [destruct (guess false cur os); reflexivity|].
  cbn [fresh o_stash o_note orb]. rewrite IH. destruct (guess false cur os); destruct (n_kind x); reflexivity.
Qed.
Lemma role_untouched x w : n_kind x <> Dur \/ w = None -> role_read (x, w) (fresh x None).
Proof.
  intros H. unfold role_read. cbn. do 2 (split; [reflexivity|]). destruct (n_kind x); destruct w as [[a ty]|]; try (split; reflexivity).
  destruct H; congruence.
Qed.
Lemma one_role x a ty o : n_kind x = Dur -> one_tuplet x a ty o -> role_read (x, Some (a, ty)) o.
Proof. intros K (N & V & R). unfold role_read. rewrite K. split; [exact N|]. split; [exact V|]. exact R. Qed.
Lemma guess_inside a n d : number 3 (a_num a) n -> number 2 (a_base a) d -> forall l os,
  exists r, Forall2 role_read (map (fun z => (z, Some (a, None))) l) r /\
    guess true (filled a) (map (fun z => fresh z None) l ++ os) = match guess true (filled a) os with Some q => Some (r ++ q) | None => None end.
Proof.
  intros H1 H2. induction l as [|x l IH]; intros os.
  - exists []. split; [constructor|]. cbn. destruct (guess true (filled a) os); reflexivity.
  - destruct (IH os) as (r & F & E). cbn [map app guess]. change (o_note (fresh x None)) with x. change (o_stash (fresh x None)) with (@None (str * tattrs)). cbn [orb].
    destruct (n_kind x) eqn:K.
    + destruct (append_one a x None n d K H1 H2) as (o & -> & Ho & _). exists (o :: r). split; [constructor; [apply one_role; assumption|exact F]|].
      rewrite E. destruct (guess true (filled a) os); reflexivity.
    + exists (fresh x None :: r). split; [constructor; [apply role_untouched; left; congruence|exact F]|]. rewrite E. destruct (guess true (filled a) os); reflexivity.
    + exists (fresh x None :: r). split; [constructor; [apply role_untouched; left; congruence|exact F]|]. rewrite E. destruct (guess true (filled a) os); reflexivity.
Qed.
Lemma guess_segs ss : forall gs prev cur, Forall (seg_ok ss) gs -> display_is cur prev ->
  exists os, guess false cur (flat_map seg_objs gs) = Some os /\ Forall2 role_read (roles prev gs) os.
Proof.
  induction gs as [|g gs IH]; intros prev cur W D; [exists []; split; [reflexivity|constructor]|].
  pose proof (Forall_inv W) as Wg. pose proof (Forall_inv_tail W) as Wt. clear W. destruct g as [l|s x l y].
  - cbn [flat_map seg_objs roles]. rewrite guess_outside. destruct (IH prev cur Wt D) as (os & -> & F). eexists. split; [reflexivity|].
    apply Forall2_app; [|exact F]. clear. induction l as [|x l IH]; [constructor|]. cbn [map]. constructor; [apply role_untouched; right; reflexivity|exact IH].
  - destruct Wg as [(_ & _ & _ & _ & Kx & Ky & _ & (n & d & N1 & N2 & _)) _]. cbn [flat_map seg_objs roles]. rewrite <- app_comm_cons, <- app_assoc.
    cbn [app guess]. change (o_note (fresh x (Some (S_ "start", span_attrs s)))) with x. rewrite Kx.
    cbn [fresh o_stash]. rewrite !str_eqb_refl. cbn [orb]. rewrite (take_says s prev cur D). set (a := says s prev).
    change (number 3 (a_num a) n) in N1. change (number 2 (a_base a) d) in N2.
    change (mkObj x (n_vis x) (n_ges x) [] (Some (S_ "start", span_attrs s))) with (fresh x (Some (S_ "start", span_attrs s))).
    rewrite append_stash. destruct (append_one a x None n d Kx N1 N2) as (ox & -> & Hx & _).
    change (no_stash (mkObj (o_note ox) (o_vis ox) (o_ges ox) (o_tups ox) (Some (S_ "start", span_attrs s)))) with (no_stash ox).
    destruct (set_type Start x a None ox Hx) as (ox' & -> & Hx' & _).
    destruct (guess_inside a n d N1 N2 l (fresh y (Some (S_ "end", span_attrs s)) :: flat_map seg_objs gs)) as (r & Fr & ->).
    cbn [guess]. change (o_note (fresh y (Some (S_ "end", span_attrs s)))) with y. rewrite Ky. cbn [fresh o_stash].
    change (str_eqb (S_ "end") (S_ "start")) with false. change (str_eqb (S_ "end") (S_ "end")) with true. cbn [orb].
    change (mkObj y (n_vis y) (n_ges y) [] (Some (S_ "end", span_attrs s))) with (fresh y (Some (S_ "end", span_attrs s))).
    rewrite append_stash. destruct (append_one a y None n d Ky N1 N2) as (oy & -> & Hy & _).
    change (no_stash (mkObj (o_note oy) (o_vis oy) (o_ges oy) (o_tups oy) (Some (S_ "end", span_attrs s)))) with (no_stash oy).
    destruct (set_type Stop y a None oy Hy) as (oy' & -> & Hy' & _).
    destruct (IH (s :: prev) (filled a) Wt) as (os & -> & F); [repeat split|].
    eexists. split; [reflexivity|]. constructor; [apply one_role; assumption|]. apply Forall2_app; [exact Fr|]. constructor; [apply one_role; assumption|exact F].
Qed.

(** C136.  In a layer, with or without beams, whose tuplets are given by <tupletSpan>
    elements with a first and a last note, one after the other, exactly the notes from
    the first to the last one of each get one tuplet: they sound by the factor of the
    tuplet shorter or longer, the first note begins and the last one ends it; all other
    notes and the grace notes stay as they are.  The tuplet looks as its attributes say;
    but for those attributes of its looks that it does not have, those of the nearest
    span before it in the layer count that has them. *)
Theorem C136_tuplet_spans : forall ss n es gs,
  flat_map inside_of es = map alone (flat_map seg_notes gs) ->
  Forall (seg_ok ss) gs ->
  exists os, read_layer (ppSpans ss) n es = Some os /\ Forall2 role_read (roles [] gs) os.
Proof.
  intros ss n es gs H W. unfold read_layer.
  rewrite (reads_alone (ppSpans ss) es) with (xs := flat_map seg_notes gs); [| |exact H].
  - destruct (read_notes_to (ppSpans ss) (flat_map seg_notes gs) (flat_map seg_objs gs) n) as (n' & ->).
    + clear H. induction W as [|g gs Hg _ IH]; [constructor|]. cbn [flat_map]. apply Forall2_app; [exact (seg_reads ss g Hg)|exact IH].
    + apply (guess_segs ss gs [] noTA W). repeat split.
  - apply Forall_forall. intros e _. exact (read_alone (ppSpans ss) e).
Qed.
Print Assumptions C136_tuplet_spans.
(** So a tuplet looks as its own attributes say if no span before it in the layer has an
    attribute of looks that it does not have. *)
Theorem C136_own_looks_partial : forall s prev,
  (forall f, In f [sp_bv; sp_bp; sp_nv; sp_np; sp_nf] -> f s = [] -> forall t, In t prev -> f t = []) ->
  says s prev = says s [].
Proof.
  intros s prev H.
  assert (G : forall f, In f [sp_bv; sp_bp; sp_nv; sp_np; sp_nf] -> nearest f (s :: prev) = nearest f [s]).
  { intros f I. specialize (H f I). cbn [nearest]. destruct (f s) eqn:E; [|reflexivity]. specialize (H eq_refl). clear I E.
    induction prev as [|t prev IH]; [reflexivity|]. cbn [nearest]. rewrite (H t (or_introl eq_refl)). apply IH. intros u Iu. apply H. right. exact Iu. }
  unfold says. rewrite !G by (cbn [In]; auto 10). reflexivity.
Qed.
Print Assumptions C136_own_looks_partial.

Definition span_of (b e num base bv nf : string) : sp :=
  mkSp (Some (S_ b)) (Some (S_ e)) None (S_ num) (S_ base) (S_ bv) [] [] [] (S_ nf).
Definition sample_spans : list sp := [span_of "#d" "#f" "" "" "" ""; span_of "#a" "c" "5" "4" "false" "ratio"].
Definition q (i : string) : note := nt i Dur (1#2).
Definition sample_segs : list seg :=
  [Outside [nt "k" Other 0]; Spanned (span_of "#a" "c" "5" "4" "false" "ratio") (q "a") [nt "g" Grace 0; q "b"] (q "c");
   Outside [q "o"]; Spanned (span_of "#d" "#f" "" "" "" "") (q "d") [q "e"] (q "f"); Outside [q "z"]].
Definition sample_es : list el :=
  [Leaf (nt "k" Other 0); Beam [Leaf (q "a"); Leaf (nt "g" Grace 0); Leaf (q "b"); Leaf (q "c")]; Leaf (q "o");
   Beam [Leaf (q "d"); Leaf (q "e")]; Leaf (q "f"); Leaf (q "z")].
Ltac no_name := intros ? I; cbn [In sample_spans] in I; destruct I as [<- | [<- | []]];
  intros (? & ? & E1 & E2 & [K | K]); injection E1 as <-; injection E2 as <-; apply names_octothorpe in K; vm_compute in K; discriminate.
Ltac free := intros _; split; [split; discriminate|no_name].
Ltac one_span := repeat split; try reflexivity; try discriminate;
  [cbn [In sample_spans]; auto
  |eexists _, _; repeat split; try reflexivity; apply names_octothorpe; reflexivity
  |intros ? I; cbn [In sample_spans] in I; destruct I as [<- | [<- | []]]; intros K; try reflexivity; exfalso;
   destruct K as [(? & ? & E1 & E2 & [K | K]) | (? & ? & E1 & E2 & [K | K])]; injection E1 as <-; injection E2 as <-; apply names_octothorpe in K; vm_compute in K; discriminate
  |].
Example C136_nonvacuous :
  flat_map inside_of sample_es = map alone (flat_map seg_notes sample_segs) /\
  Forall (seg_ok sample_spans) sample_segs /\
  match read_layer (ppSpans sample_spans) 0 sample_es with
  | Some os => map (fun o => (Qred (sounding o), map (fun t => (t_num t, t_type t, t_bracket t, t_normal t)) (o_tups o))) os
  | None => []
  end =
  [((0 # 1)%Q, []); ((2 # 5)%Q, [(5%Z, Some Start, BFalse, Some (S_ "number"))]); ((0 # 1)%Q, []);
   ((2 # 5)%Q, [(5%Z, None, BFalse, Some (S_ "number"))]); ((2 # 5)%Q, [(5%Z, Some Stop, BFalse, Some (S_ "number"))]);
   ((1 # 2)%Q, []); ((1 # 3)%Q, [(3%Z, Some Start, BFalse, Some (S_ "number"))]); ((1 # 3)%Q, [(3%Z, None, BFalse, Some (S_ "number"))]);
   ((1 # 3)%Q, [(3%Z, Some Stop, BFalse, Some (S_ "number"))]); ((1 # 2)%Q, [])].
Proof.
  split; [reflexivity|]. split; [|vm_compute; reflexivity].
  constructor; [intros x [<- | []] C; contradiction C; reflexivity|].
  constructor; [split; [one_span; exists 5%Z, 4%Z; repeat split; reflexivity|intros x [<- | [<- | []]]; free]|].
  constructor; [intros x [<- | []]; free|].
  constructor; [split; [one_span; exists 3%Z, 2%Z; repeat split; reflexivity|intros x [<- | []]; free]|].
  constructor; [intros x [<- | []]; free|]. constructor.
Qed.

(** Not so: the looks of a tuplet are those that its own element gives.  (The second
    tuplet above has neither attribute; it looks like the first one.) *)
Theorem C136_own_looks_refuted : exists ss es gs os s x o t,
  flat_map inside_of es = map alone (flat_map seg_notes gs) /\ Forall (seg_ok ss) gs /\ read_layer (ppSpans ss) 0 es = Some os /\
  In (Spanned s x [q "e"] (q "f")) gs /\ In o os /\ o_note o = x /\ In t (o_tups o) /\
  sp_bv s = [] /\ sp_nf s = [] /\ ~ looks (says s []) t.
Proof.
  exists sample_spans, sample_es, sample_segs. eexists _, _, _, _, _. split; [reflexivity|]. split; [exact (proj1 (proj2 C136_nonvacuous))|].
  split; [vm_compute; reflexivity|]. split; [right; right; right; left; reflexivity|].
  split; [do 6 right; left; reflexivity|]. split; [reflexivity|]. split; [left; reflexivity|]. split; [reflexivity|]. split; [reflexivity|].
  intros (L & _). specialize (L eq_refl). discriminate.
Qed.
Print Assumptions C136_own_looks_refuted.
(** Not so: a span of a single note is read. *)
Theorem C136_single_note_refuted : exists s x o, sp_plist s = None /\ sp_start s = Some ("#"%char :: n_id x) /\ sp_end s = Some ("#"%char :: n_id x) /\
  n_kind x = Dur /\ read_layer (ppSpans [s]) 0 [Leaf x] = Some [o] /\ o_tups o = [].
Proof.
  exists (span_of "#a" "#a" "3" "2" "" ""), (q "a"). eexists. repeat split; vm_compute; reflexivity.
Qed.
Print Assumptions C136_single_note_refuted.
(** Not so: notes whose attributes [tuplet] say that they are the first, an inner and the
    last note of a tuplet, without any other element, are read as a tuplet (as the code
    means to do, meireader.py:5002-5017). *)
Theorem C136_bare_refuted : exists x y z os, n_kind x = Dur /\ n_kind y = Dur /\ n_kind z = Dur /\
  n_tup x = S_ "i1" /\ n_tup y = S_ "m1" /\ n_tup z = S_ "t1" /\
  read_layer noAttrs 0 [Leaf x; Leaf y; Leaf z] = Some os /\ Forall (fun o => o_tups o = []) os.
Proof.
  exists (mkNote (S_ "a") Dur (1#2) None (S_ "i1")), (mkNote (S_ "b") Dur (1#2) None (S_ "m1")), (mkNote (S_ "c") Dur (1#2) None (S_ "t1")).
  eexists. do 6 (split; [reflexivity|]). split; [vm_compute; reflexivity|]. repeat constructor.
Qed.
Print Assumptions C136_bare_refuted.
(** But they are, if another note before them ends a tuplet that never began. *)
Theorem C136_stray_end_refuted : ~ (forall w x y z, Forall (fun u => n_kind u = Dur) [w; x; y; z] ->
  forall os os', read_layer noAttrs 0 [Leaf x; Leaf y; Leaf z] = Some os -> read_layer noAttrs 0 [Leaf w; Leaf x; Leaf y; Leaf z] = Some os' ->
  map o_tups os = map o_tups (tl os')).
Proof.
  intros H. specialize (H (mkNote (S_ "w") Dur (1#2) None (S_ "t1")) (mkNote (S_ "a") Dur (1#2) None (S_ "i1")) (mkNote (S_ "b") Dur (1#2) None (S_ "m1")) (mkNote (S_ "c") Dur (1#2) None (S_ "t1"))
    ltac:(repeat constructor)). specialize (H _ _ eq_refl eq_refl). vm_compute in H. discriminate.
Qed.
Print Assumptions C136_stray_end_refuted.
