(** C137: tuplets that are written and read again. *)
From Coq Require Import ZArith QArith Lia.
From Verif Require Import PyStr PyStrProofs DateModel MeiIdsModel PropsMeiIds PropsMeiLyrics MeiOrnProofs MeiTupletModel PropsMeiTuplet PropsMeiTupletSpan.
Local Close Scope Q_scope.

(** * Words of the statements. *)
(** The numbers that are shown: none, the number of notes, or both. *)
Definition usual_numbers (t : tup) : Prop :=
  (t_actual t = None /\ t_normal t = None) \/
  (t_actual t = Some (S_ "number") /\ (t_normal t = None \/ t_normal t = Some (S_ "number"))).
(** Something of the tuplet is seen. *)
Definition seen (t : tup) : Prop := t_bracket t <> BFalse \/ t_actual t <> None \/ t_normal t <> None.
Definition comes_back (t t' : tup) : Prop :=
  t_num t' = t_num t /\ t_base t' = t_base t /\
  (t_bracket t <> BSlur -> t_bracket t' = t_bracket t) /\ (t_bracket t = BSlur -> t_bracket t' = BTrue) /\
  (usual_numbers t -> t_actual t' = t_actual t /\ t_normal t' = t_normal t) /\
  (seen t -> t_place t' = t_place t).

Lemma number_show d z z' : number d (Some (show_Z z)) z' -> z' = z.
Proof. unfold number. rewrite py_int_show. congruence. Qed.
Lemma looks_back t t' : number 3 (a_num (fill t)) (t_num t') -> number 2 (a_base (fill t)) (t_base t') -> looks (fill t) t' -> comes_back t t'.
Proof.
  intros N B (L1 & L2 & L3 & L4 & L5 & L6 & L7 & L8 & L9). unfold comes_back.
  unfold fill in *. cbn [a_num a_base a_bv a_bp a_nv a_np a_nf] in *. apply number_show in N, B.
  split; [exact N|]. split; [exact B|]. split; [|split; [|split]].
  - intros NS. destruct (t_bracket t); cbn in *; auto. contradiction.
  - intros E. rewrite E in *. apply L2. reflexivity.
  - intros [[E1 E2] | [E1 [E2 | E2]]]; rewrite E1, E2 in *; cbn in *.
    + apply L4. reflexivity.
    + apply L5; [left; reflexivity|right; reflexivity].
    + apply L6; [left; reflexivity|reflexivity].
  - intros S. set (vis := negb (absent (t_actual t)) || negb (absent (t_normal t))) in *.
    assert (V : vis = false -> t_bracket t <> BFalse).
    { intros E. destruct S as [S | S]; [exact S|]. unfold vis in E. destruct (t_actual t), (t_normal t); try discriminate. destruct S as [S | S]; contradiction. }
    assert (T : t_bracket t <> BFalse -> shown_true (bracket_attr (t_bracket t))).
    { intros E. unfold shown_true. destruct (t_bracket t); cbn; auto. contradiction. }
    destruct (t_place t) as [p|] eqn:P.
    + destruct (t_bracket t) eqn:Bk.
      1, 2, 4: apply L7; [apply T; discriminate|reflexivity].
      destruct vis; [|contradiction (V eq_refl); reflexivity]. rewrite L8; [reflexivity| |left; reflexivity].
      right. reflexivity.
    + destruct vis.
      * rewrite L8; [reflexivity|right; destruct (t_bracket t); reflexivity|left; reflexivity].
      * apply L9; [right; destruct (t_bracket t); reflexivity|]. intros [C | C]; discriminate.
Qed.

(** C137.  The notes of a tuplet that is written as an element <tuplet>, with beams or
    other elements in it, have exactly this tuplet when they are read: with its numbers,
    its bracket (a curved one becomes a straight one), its place if anything of it is
    seen, and the numbers that are shown if these are none, the first or both; the first
    note begins it and the last one ends it. *)
Theorem C137_written_elements : forall ss n t xs es,
  (0 < t_num t)%Z -> (0 < t_base t)%Z ->
  flat_map inside_of es = map alone xs -> (exists x, In x xs /\ n_kind x = Dur) -> (forall x, In x xs -> unnamed ss x) ->
  exists os, read_layer (ppSpans ss) n [Tup (fill t) es] = Some os /\ map o_note os = xs /\
    forall i o, nth_error os i = Some o ->
      (n_kind (o_note o) <> Dur -> o_tups o = []) /\
      (n_kind (o_note o) = Dur -> exists t', o_tups o = [t'] /\ comes_back t t' /\
         (t_type t' = Some Start <-> (forall j u, j < i -> nth_error xs j = Some u -> n_kind u <> Dur) /\ exists j u, i < j /\ nth_error xs j = Some u /\ n_kind u = Dur) /\
         (t_type t' = Some Stop <-> (forall j u, i < j -> nth_error xs j = Some u -> n_kind u <> Dur) /\ exists j u, j < i /\ nth_error xs j = Some u /\ n_kind u = Dur) /\
         (sounding o == own_length (o_note o) * (inject_Z (t_base t) / inject_Z (t_num t)))%Q).
Proof.
  intros ss n t xs es P1 P2 E [w [Iw Kw]] U.
  assert (IN : forall (x : note) p, In (x, p) (flat_map inside_of [Tup (fill t) es]) -> In x xs /\ exists b f, p = [(fill t, b, f)]).
  { intros x p I. cbn [flat_map inside_of] in I. rewrite app_nil_r, E in I. apply In_mark in I. destruct I as (p0 & bb & f & I & Ep). cbn [fst snd] in *.
    apply in_map_iff in I. destruct I as (y & Ey & Iy). injection Ey as -> <-. split; [exact Iy|]. exists bb, f. exact Ep. }
  destruct (C135_tuplet_elements ss n [Tup (fill t) es]) as (os & R & F).
  - intros x p I K. apply IN in I. exact (U x (proj1 I) K).
  - intros x p a b f I _ J. apply IN in I. destruct I as (_ & bb & ff & ->). destruct J as [J | []]. injection J as <- <- <-.
    exists (t_num t), (t_base t). unfold fill, number. cbn [a_num a_base]. rewrite !py_int_show. auto.
  - exists os. split; [exact R|]. cbn [flat_map inside_of] in F. rewrite app_nil_r, E in F.
    assert (NP : 0 < notes_in (map alone xs)).
    { apply in_split in Iw. destruct Iw as (u & v & ->). rewrite map_app. cbn [map]. rewrite notes_app. unfold alone at 2. rewrite notes_cons. unfold is_note. rewrite Kw. lia. }
    rewrite mark_kept in F by (cbn; exact NP).
    assert (KA : filter kept (map alone xs) = map alone xs).
    { clear. induction xs as [|x xs IH]; [reflexivity|]. cbn [map filter]. change (kept (alone x)) with true. cbn. f_equal. exact IH. }
    rewrite KA in F.
    assert (G : forall xs b os, Forall2 read_as (mark (fill t) b (map alone xs)) os -> map o_note os = xs /\
      forall i o, nth_error os i = Some o -> read_as (o_note o, [(fill t, b + length (filter is_note (firstn i xs)), length (filter is_note (skipn (S i) xs)))]) o).
    { clear. induction xs as [|x xs IH]; intros b os F; cbn [map alone mark] in F.
      - inversion F; subst. split; [reflexivity|]. intros [|i] o H; discriminate.
      - destruct os as [|o os]; [inversion F|]. apply Forall2_cons_inv in F. destruct F as [F1 F2]. destruct (IH _ _ F2) as [M N].
        assert (Ex : o_note o = x) by apply F1. split; [cbn; rewrite Ex, M; reflexivity|].
        assert (NM : forall l, notes_in (map alone l) = length (filter is_note l)).
        { clear. induction l as [|y l IH]; [reflexivity|]. cbn [map]. unfold alone at 1. rewrite notes_cons, IH. cbn. destruct (is_note y); reflexivity. }
        intros [|i] o' H; cbn [nth_error] in H.
        + injection H as <-. rewrite Ex. cbn [firstn skipn filter length]. rewrite Nat.add_0_r, <- NM. exact F1.
        + specialize (N i o' H). cbn [firstn skipn filter]. destruct (is_note x); cbn [length] in *; [rewrite <- Nat.add_assoc in N; exact N|rewrite Nat.add_0_r in N; exact N]. }
    destruct (G xs 0 os F) as [M N]. split; [exact M|]. intros i o H. specialize (N i o H). cbn [Nat.add] in N.
    set (b := length (filter is_note (firstn i xs))) in *. set (f := length (filter is_note (skipn (S i) xs))) in *.
    destruct N as (_ & _ & NX & ND). split; [intros K; apply NX; exact K|]. intros K. destruct (ND K) as [ND1 ND2].
    assert (ND1' : Forall2 tuplet_is [(fill t, b, f)] (o_tups o)) by (destruct (n_ges (o_note o)); exact ND1). clear ND1 NX ND.
    destruct (o_tups o) as [|t' l2] eqn:Et; [inversion ND1'|]. apply Forall2_cons_inv in ND1'. destruct ND1' as [H1 H2]. destruct l2; [|inversion H2]. exists t'. split; [reflexivity|].
    destruct H1 as (T1 & T2 & T3 & T4). pose proof (looks_back t t' T1 T2 T3) as CB. split; [exact CB|].
    assert (Zb : forall l, length (filter is_note l) = 0 <-> (forall j u, nth_error l j = Some u -> n_kind u <> Dur)).
    { clear. induction l as [|x l IH]; [split; [intros _ [|j] u; discriminate|reflexivity]|]. cbn [filter]. split.
      - intros Z [|j] u Hu; cbn in Hu.
        + injection Hu as ->. unfold is_note in Z. destruct (n_kind u); [discriminate| |]; discriminate.
        + destruct (is_note x); [discriminate|]. exact (proj1 IH Z j u Hu).
      - intros A. assert (Q := A 0 x eq_refl). unfold is_note. destruct (n_kind x); [contradiction| |]; apply IH; intros j u Hu; exact (A (S j) u Hu). }
    assert (Pb : forall l, 0 < length (filter is_note l) <-> (exists j u, nth_error l j = Some u /\ n_kind u = Dur)).
    { clear. intros l. split.
      - induction l as [|x l IH]; cbn [filter]; [cbn; lia|]. destruct (is_note x) eqn:Kx.
        + intros _. exists 0, x. split; [reflexivity|]. unfold is_note in Kx. destruct (n_kind x); congruence.
        + intros Z. destruct (IH Z) as (j & u & A & B). exists (S j), u. split; assumption.
      - intros (j & u & A & B). apply nth_error_In in A. apply in_split in A. destruct A as (l1 & l2 & ->). rewrite filter_app, app_length. cbn [filter]. unfold is_note at 2. rewrite B. cbn. lia. }
    assert (FN : forall j u, j < i -> nth_error xs j = Some u -> nth_error (firstn i xs) j = Some u).
    { clear. induction i as [|i IH] in xs |- *; intros j u L A; [lia|]. destruct xs as [|x xs]; [destruct j; discriminate|]. destruct j; [exact A|]. cbn in *. apply IH; [lia|exact A]. }
    assert (FN2 : forall j u, nth_error (firstn i xs) j = Some u -> j < i /\ nth_error xs j = Some u).
    { clear. induction i as [|i IH] in xs |- *; intros j u A; [destruct j; discriminate|]. destruct xs as [|x xs]; [destruct j; discriminate|]. destruct j; [split; [lia|exact A]|]. cbn in *. destruct (IH _ _ _ A). split; [lia|assumption]. }
    assert (SN : forall j u, nth_error (skipn (S i) xs) j = Some u <-> nth_error xs (S i + j) = Some u).
    { clear. assert (G : forall k (l : list note) j, nth_error (skipn k l) j = nth_error l (k + j)).
      { induction k as [|k IH]; intros l j; [reflexivity|]. destruct l as [|x l]; [destruct j; reflexivity|]. apply IH. }
      intros j u. rewrite G. reflexivity. }
    assert (B0 : b = 0 <-> (forall j u, j < i -> nth_error xs j = Some u -> n_kind u <> Dur)).
    { unfold b. rewrite Zb. split; [intros A j u L Hj; apply (A j u); apply FN; assumption|intros A j u Hj; destruct (FN2 _ _ Hj); apply (A j u); assumption]. }
    assert (B1 : 0 < b <-> (exists j u, j < i /\ nth_error xs j = Some u /\ n_kind u = Dur)).
    { unfold b. rewrite Pb. split; [intros (j & u & A & B); destruct (FN2 _ _ A); exists j, u; auto|intros (j & u & L & A & B); exists j, u; split; [apply FN; assumption|exact B]]. }
    assert (F0 : f = 0 <-> (forall j u, i < j -> nth_error xs j = Some u -> n_kind u <> Dur)).
    { unfold f. rewrite Zb. split; [intros A j u L Hj; apply (A (j - S i) u); apply SN; replace (S i + (j - S i)) with j by lia; exact Hj|intros A j u Hj; apply SN in Hj; apply (A (S i + j) u); [lia|exact Hj]]. }
    assert (F1' : 0 < f <-> (exists j u, i < j /\ nth_error xs j = Some u /\ n_kind u = Dur)).
    { unfold f. rewrite Pb. split; [intros (j & u & A & B); apply SN in A; exists (S i + j), u; repeat split; [lia|exact A|exact B]|intros (j & u & L & A & B); exists (j - S i), u; split; [apply SN; replace (S i + (j - S i)) with j by lia; exact A|exact B]]. }
    rewrite T4, <- B0, <- B1, <- F0, <- F1'. split; [|split].
    + unfold part. destruct b, f; split; intros A; try discriminate; try (destruct A; lia); try reflexivity; lia.
    + unfold part. destruct b, f; split; intros A; try discriminate; try (destruct A; lia); try reflexivity; lia.
    + destruct ND2 as (qs & Fq & Q). destruct qs as [|q0 qs]; [inversion Fq|]. apply Forall2_cons_inv in Fq. destruct Fq as [(u & v & Hu & Hv & Eq) Fq]. destruct qs; [|inversion Fq].
      unfold fill in Hu, Hv. cbn [fst a_num a_base] in Hu, Hv. apply number_show in Hu, Hv. subst u v. rewrite Q. cbn [product fold_right]. rewrite Eq. ring.
Qed.
Print Assumptions C137_written_elements.
Definition tup_sample : tup := mkTup 7 4 None (Some (S_ "below")) BFalse (Some (S_ "number")) (Some (S_ "number")).
Example C137_elements_nonvacuous :
  (exists x, In x [nt "k" Other 0; nt "a" Dur 1; nt "g" Grace 0; nt "b" Dur 1] /\ n_kind x = Dur) /\
  (forall x, In x [nt "k" Other 0; nt "a" Dur 1; nt "g" Grace 0; nt "b" Dur 1] -> unnamed [] x) /\
  match read_layer noAttrs 0 [Tup (fill tup_sample) [Leaf (nt "k" Other 0); Beam [Leaf (nt "a" Dur 1); Leaf (nt "g" Grace 0); Leaf (nt "b" Dur 1)]]] with
  | Some os => map o_tups os
  | None => []
  end = [[]; [mkTup 7 4 (Some Start) (Some (S_ "below")) BFalse (Some (S_ "number")) (Some (S_ "number"))]; [];
         [mkTup 7 4 (Some Stop) (Some (S_ "below")) BFalse (Some (S_ "number")) (Some (S_ "number"))]].
Proof.
  split; [exists (nt "a" Dur 1); split; [right; left; reflexivity|reflexivity]|]. split; [|vm_compute; reflexivity].
  intros x I _. split; [|intros s []]. cbn [In] in I. repeat (destruct I as [<- | I]; [split; discriminate|]). destruct I.
Qed.

(** * Written as a span. *)
(** Ids that can be in a list: not empty, without spaces, no number sign in front. *)
Definition listable (i : str) : Prop := i <> [] /\ ~ In " "%char i /\ hd_error i <> Some "#"%char.
(** [x] is a note of the written span of [t] with the notes [ids], and of no other. *)
Definition written_in (ss : list sp) (t : tup) (ids : list str) (x : note) : Prop :=
  n_kind x = Dur /\ In (written_span t ids) ss /\ (forall u, In u ss -> names_note u (n_id x) -> u = written_span t ids) /\
  In (n_id x) ids /\ Forall listable ids /\ n_tup x = written_tup ids (n_id x) /\
  (0 < t_num t)%Z /\ (0 < t_base t)%Z /\ t_place t <> Some [].
Lemma given_orEmpty o : o <> Some [] -> given (orEmpty o) = o.
Proof. intros H. destruct o as [[|c s]|]; [contradiction|reflexivity|reflexivity]. Qed.
Lemma show_Z_ne z : show_Z z <> [].
Proof. intros C. pose proof (py_int_show z) as H. rewrite C in H. discriminate. Qed.
Lemma says_written t ids : t_place t <> Some [] -> says (written_span t ids) [] = fill t.
Proof.
  intros P. assert (N1 := show_Z_ne (t_num t)). assert (N2 := show_Z_ne (t_base t)).
  assert (L : forall f s, nearest f [s] = given (f s)) by (intros f s; cbn; destruct (f s); reflexivity).
  unfold says. rewrite !L. unfold written_span. cbn [sp_num sp_base sp_bv sp_bp sp_nv sp_np sp_nf].
  assert (X : forall a b, a_num a = a_num b -> a_base a = a_base b -> a_bv a = a_bv b -> a_bp a = a_bp b -> a_nv a = a_nv b -> a_np a = a_np b -> a_nf a = a_nf b -> a = b).
  { intros [] []; cbn; congruence. }
  apply X; cbn [a_num a_base a_bv a_bp a_nv a_np a_nf]; apply given_orEmpty; unfold fill; cbn [a_num a_base a_bv a_bp a_nv a_np a_nf].
  - congruence.
  - congruence.
  - destruct (t_bracket t); discriminate.
  - destruct (t_bracket t); congruence.
  - destruct (_ || _); discriminate.
  - destruct (_ || _); congruence.
  - destruct ((_ || _) && _); [|discriminate]. destruct (is_number (t_normal t)); [discriminate|]. destruct (absent (t_normal t)); discriminate.
Qed.
Lemma span_attrs_filled s : span_attrs s = filled (says s []).
Proof.
  unfold span_attrs, filled, says. cbn [a_num a_base a_bv a_bp a_nv a_np a_nf nearest]. unfold given, default.
  destruct (sp_num s), (sp_base s), (sp_bv s), (sp_bp s), (sp_nv s), (sp_np s), (sp_nf s); reflexivity.
Qed.
Lemma plist_at s i : i <> [] -> forall l m, unset_or m i s -> search_at m i = None -> (exists w, In w l /\ removeOctothorpe w = i) \/ attrs_at m i = span_attrs s ->
  let m' := fold_left (fun m i0 => match removeOctothorpe i0 with [] => m | i => setSpan m i s end) l m in
  attrs_at m' i = span_attrs s /\ search_at m' i = None.
Proof.
  intros NE. induction l as [|w l IH]; intros m U S C m'.
  - destruct C as [(w & [] & _) | C]. split; assumption.
  - subst m'. cbn [fold_left].
    destruct (str_eqb (removeOctothorpe w) i) eqn:E.
    + apply str_eqb_eq in E. rewrite E. destruct i as [|c i]; [contradiction|]. apply IH.
      * right. apply setSpan_at. exact U.
      * rewrite setSpan_search. exact S.
      * right. apply setSpan_at. exact U.
    + apply str_eqb_neq in E. set (m1 := match removeOctothorpe w with [] => m | i => setSpan m i s end).
      assert (A : attrs_at m1 i = attrs_at m i /\ search_at m1 i = search_at m i).
      { unfold m1. destruct (removeOctothorpe w) as [|c u]; [split; reflexivity|]. split; [apply attrs_setSpan_other; congruence|apply setSpan_search]. }
      destruct A as [A1 A2]. apply IH; [unfold unset_or; rewrite A1; exact U|rewrite A2; exact S|].
      destruct C as [(v & [<- | I] & Ev) | C]; [contradiction|left; exists v; split; assumption|right; rewrite A1; exact C].
Qed.
Lemma ppSpans_listed s i p : i <> [] -> sp_plist s = Some p -> (exists w, In w (split_char " " p) /\ names w i) ->
  forall ss m, (forall t, In t ss -> names_note t i -> t = s) -> unset_or m i s -> search_at m i = None -> In s ss \/ attrs_at m i = span_attrs s ->
  attrs_at (fold_left ppSpan ss m) i = span_attrs s /\ search_at (fold_left ppSpan ss m) i = None.
Proof.
  intros NE P (w & Iw & Nw). induction ss as [|t ss IH]; intros m U H S C.
  - destruct C as [[] | C]. split; assumption.
  - cbn [fold_left]. destruct (sp_eq_dec t s) as [->|N].
    + destruct (plist_at s i NE (split_char " " p) m H S) as [D1 D2].
      { left. exists w. split; [exact Iw|]. apply names_octothorpe. exact Nw. }
      assert (E : ppSpan m s = fold_left (fun m i0 => match removeOctothorpe i0 with [] => m | i => setSpan m i s end) (split_char " " p) m) by (unfold ppSpan; rewrite P; reflexivity).
      apply IH; [intros t I; apply U; right; exact I|right; rewrite E; exact D1|rewrite E; exact D2|right; rewrite E; exact D1].
    + assert (N1 : ~ names_note t i) by (intros K; apply N; apply U; [left; reflexivity|exact K]).
      apply IH; [intros u I; apply U; right; exact I|unfold unset_or; rewrite attrs_other by exact N1; exact H|unfold search_at; rewrite ppSpan_other by exact N1; exact S|].
      rewrite attrs_other by exact N1. destruct C as [[C | C] | C]; [congruence|left; exact C|right; exact C].
Qed.
Lemma listed_names ids i : Forall listable ids -> In i ids -> i <> [] /\ exists w, In w (split_char " " (join (S_ " ") ids)) /\ names w i.
Proof.
  intros L I. assert (NE : ids <> []) by (destruct ids; [destruct I|discriminate]).
  rewrite Forall_forall in L. destruct (L i I) as (N1 & N2 & N3). split; [exact N1|]. exists i. split.
  - change (S_ " ") with [" "%char]. rewrite split_join; [exact I|exact NE|]. apply forallb_forall. intros w Iw. destruct (L w Iw) as (_ & K & _).
    destruct (char_in " " w) eqn:C; [|reflexivity]. exfalso. apply K. unfold char_in in C. apply existsb_exists in C. destruct C as (c & Ic & Ec). apply Ascii.eqb_eq in Ec. subst c. exact Ic.
  - right. split; [reflexivity|exact N3].
Qed.
(** The same for tuplets that are written as <tupletSpan> elements (with all their notes
    listed in [plist], which themselves have an attribute [tuplet]): of all the notes in
    the layer, whatever the order of the spans in the file, exactly those of a tuplet have
    one, and that comes back; the first one of the list begins it, the last one ends it. *)
Theorem C137_written_spans : forall ss n es xs (home : note -> option (tup * list str)),
  flat_map inside_of es = map alone xs ->
  (forall x, In x xs -> match home x with None => unnamed ss x | Some (t, ids) => written_in ss t ids x end) ->
  exists os, read_layer (ppSpans ss) n es = Some os /\
    Forall2 (fun x o => o_note o = x /\ o_vis o = n_vis x /\
      match home x with
      | None => o_tups o = [] /\ o_ges o = n_ges x
      | Some (t, ids) => exists t', o_tups o = [t'] /\ comes_back t t' /\
          (hd_error ids = Some (n_id x) -> t_type t' = Some Start) /\
          (hd_error ids <> Some (n_id x) -> hd_error (rev ids) = Some (n_id x) -> t_type t' = Some Stop) /\
          (hd_error ids <> Some (n_id x) -> hd_error (rev ids) <> Some (n_id x) -> t_type t' = None) /\
          (sounding o == own_length x * (inject_Z (t_base t) / inject_Z (t_num t)))%Q
      end) xs os.
Proof.
  intros ss n es xs home E H.
  set (R := fun x o => o_note o = x /\ o_vis o = n_vis x /\
      match home x with
      | None => o_tups o = [] /\ o_ges o = n_ges x
      | Some (t, ids) => exists t', o_tups o = [t'] /\ comes_back t t' /\
          (hd_error ids = Some (n_id x) -> t_type t' = Some Start) /\
          (hd_error ids <> Some (n_id x) -> hd_error (rev ids) = Some (n_id x) -> t_type t' = Some Stop) /\
          (hd_error ids <> Some (n_id x) -> hd_error (rev ids) <> Some (n_id x) -> t_type t' = None) /\
          (sounding o == own_length x * (inject_Z (t_base t) / inject_Z (t_num t)))%Q
      end).
  assert (ONE : forall x, In x xs -> exists o, reads_to (ppSpans ss) x o /\ R x o /\ o_stash o = None).
  { intros x I. specialize (H x I). unfold R. destruct (home x) as [[t ids]|].
    - destruct H as (K & Is & U & Ii & L & Tp & P1 & P2 & Pl).
      destruct (listed_names ids (n_id x) L Ii) as (NE & Nm).
      destruct (ppSpans_listed (written_span t ids) (n_id x) _ NE eq_refl Nm ss noAttrs U (or_introl eq_refl) eq_refl (or_introl Is)) as [A S].
      change (fold_left ppSpan ss noAttrs) with (ppSpans ss) in A, S.
      rewrite span_attrs_filled, (says_written t ids Pl) in A.
      set (ty := if starts_with_c "i" (n_tup x) then Some Start else if starts_with_c "t" (n_tup x) then Some Stop else None).
      destruct (append_one (fill t) x ty (t_num t) (t_base t) K) as (o & Eo & (N & V & t' & Et & T1 & T2 & T3 & T4 & Q) & St).
      { unfold fill, number. cbn [a_num]. apply py_int_show. }
      { unfold fill, number. cbn [a_base]. apply py_int_show. }
      exists o. split; [|split; [|exact St]].
      + intros k. eexists. unfold read_leaf. rewrite K, S, A. unfold filled at 1. cbn [a_num]. unfold fill at 1. cbn [a_num].
        change (mkObj x (n_vis x) (n_ges x) [] None) with (fresh x None). fold ty. rewrite Eo. reflexivity.
      + split; [exact N|]. split; [exact V|]. exists t'. split; [exact Et|]. pose proof (looks_back t t' T1 T2 T3) as CB. split; [exact CB|].
        assert (Hh : hd_error ids = Some (n_id x) <-> n_id x = hd [] ids) by (destruct ids as [|i ids]; [destruct Ii|cbn; split; congruence]).
        assert (Hl : hd_error (rev ids) = Some (n_id x) <-> n_id x = last ids []).
        { destruct ids as [|i ids] using rev_ind; [destruct Ii|]. rewrite rev_app_distr, last_last. cbn. split; congruence. }
        rewrite Hh, Hl, T4. unfold ty. rewrite Tp. unfold written_tup.
        split; [intros ->; rewrite str_eqb_refl; reflexivity|]. split; [|split].
        * intros N1 N2. apply str_eqb_neq in N1. rewrite N1. rewrite N2, str_eqb_refl. reflexivity.
        * intros N1 N2. apply str_eqb_neq in N1, N2. rewrite N1, N2. reflexivity.
        * destruct CB as (C1 & C2 & _). rewrite C1, C2 in Q. exact Q.
    - exists (fresh x None). split; [exact (reads_unnamed ss x H)|]. repeat split. }
  assert (ALL : forall l, (forall x, In x l -> In x xs) -> exists os, Forall2 (reads_to (ppSpans ss)) l os /\ Forall2 R l os /\ Forall (fun o => o_stash o = None) os).
  { induction l as [|x l IH]; intros Sub; [exists []; repeat constructor|].
    destruct (IH (fun y I => Sub y (or_intror I))) as (os & F1 & F2 & F3). destruct (ONE x (Sub x (or_introl eq_refl))) as (o & O1 & O2 & O3).
    exists (o :: os). repeat split; constructor; assumption. }
  destruct (ALL xs (fun x I => I)) as (os & F1 & F2 & F3). exists os. split; [|exact F2]. unfold read_layer.
  rewrite (reads_alone (ppSpans ss) es) with (xs := xs); [| |exact E].
  - destruct (read_notes_to (ppSpans ss) xs os n F1) as (n' & ->). apply guess_none. exact F3.
  - apply Forall_forall. intros e _. exact (read_alone (ppSpans ss) e).
Qed.
Print Assumptions C137_written_spans.
Definition wn (i w : string) : note := mkNote (S_ i) Dur (1#2) None (S_ w).
Definition span_ids : list str := [S_ "a"; S_ "b"; S_ "c"].
Definition two_written : list sp := [written_span (mkTup 3 2 None (Some (S_ "above")) BNone (Some (S_ "number")) None) [S_ "d"; S_ "e"]; written_span tup_sample span_ids].
Example C137_spans_nonvacuous :
  Forall (written_in two_written tup_sample span_ids) [wn "a" "i1"; wn "b" "m1"; wn "c" "t1"] /\ unnamed two_written (wn "o" "") /\
  match read_layer (ppSpans two_written) 0 [Leaf (wn "a" "i1"); Leaf (wn "b" "m1"); Leaf (wn "c" "t1"); Leaf (wn "o" ""); Leaf (wn "d" "i1"); Leaf (wn "e" "t1")] with
  | Some os => map (fun o => map (fun t => (t_num t, t_type t, t_place t)) (o_tups o)) os
  | None => []
  end = [[(7%Z, Some Start, Some (S_ "below"))]; [(7%Z, None, Some (S_ "below"))]; [(7%Z, Some Stop, Some (S_ "below"))]; [];
         [(3%Z, Some Start, Some (S_ "above"))]; [(3%Z, Some Stop, Some (S_ "above"))]].
Proof.
  assert (D : forall i, ~ In i [S_ "d"; S_ "e"] -> hd_error i <> Some "#"%char -> forall u, In u two_written -> names_note u i -> u = written_span tup_sample span_ids).
  { intros i Ni Hi u [<- | [<- | []]] K; [|reflexivity]. exfalso. apply Ni. unfold names_note in K. cbn [sp_plist written_span] in K. destruct K as (w & I & Hw). vm_compute in I.
    destruct I as [<- | [<- | []]]; destruct Hw as [Hw | [<- _]]; try discriminate; vm_compute; auto. }
  assert (L : Forall listable span_ids).
  { repeat constructor; try discriminate; cbn; intuition discriminate. }
  split; [|split; [|vm_compute; reflexivity]].
  - assert (X : forall x, In x [wn "a" "i1"; wn "b" "m1"; wn "c" "t1"] -> written_in two_written tup_sample span_ids x).
    { intros x I. assert (K : n_kind x = Dur /\ In (n_id x) span_ids /\ n_tup x = written_tup span_ids (n_id x) /\ ~ In (n_id x) [S_ "d"; S_ "e"] /\ hd_error (n_id x) <> Some "#"%char).
      { cbn [In] in I. destruct I as [<- | [<- | [<- | []]]]; (split; [reflexivity|]; split; [vm_compute; auto|]; split; [reflexivity|]; split; [intros C; vm_compute in C; intuition discriminate|discriminate]). }
      destruct K as (K1 & K2 & K3 & K4 & K5). unfold written_in. split; [exact K1|]. split; [right; left; reflexivity|]. split; [exact (D _ K4 K5)|].
      split; [exact K2|]. split; [exact L|]. split; [exact K3|]. split; [reflexivity|]. split; [reflexivity|discriminate]. }
    apply Forall_forall. exact X.
  - intros _. split; [split; discriminate|]. intros s [<- | [<- | []]] (w & I & Hw); vm_compute in I; repeat (destruct I as [<- | I]; [destruct Hw as [Hw | [Hw _]]; discriminate|]); destruct I.
Qed.

(** Not so: a tuplet of a single note, written as a span, comes back with a note that
    begins and ends it. *)
Theorem C137_single_refuted : exists t x os t', written_in [written_span t [n_id x]] t [n_id x] x /\
  read_layer (ppSpans [written_span t [n_id x]]) 0 [Leaf x] = Some os /\ map o_tups os = [[t']] /\ t_type t' = Some Start.
Proof.
  exists tup_sample, (wn "a" "i1"). eexists _, _. split; [|split; [vm_compute; reflexivity|split; [vm_compute; reflexivity|reflexivity]]].
  unfold written_in. split; [reflexivity|]. split; [left; reflexivity|]. split; [intros u [<- | []] _; reflexivity|]. split; [left; reflexivity|].
  split; [|repeat split; discriminate]. constructor; [|constructor]. split; [discriminate|]. split; [|discriminate]. cbn. intuition discriminate.
Qed.
Print Assumptions C137_single_refuted.
(** Not so: the numbers that a tuplet shows come back, whichever they are; and its place,
    if nothing of it is seen. *)
Theorem C137_numbers_refuted : exists t t', number 3 (a_num (fill t)) (t_num t') /\ number 2 (a_base (fill t)) (t_base t') /\ looks (fill t) t' /\
  t_actual t = None /\ t_normal t = Some (S_ "number") /\ t_actual t' = Some (S_ "number") /\ t_normal t' = None.
Proof.
  set (t := mkTup 3 2 None None BNone None (Some (S_ "number"))).
  exists t, (mkTup 3 2 None (place_of (fill t)) (bracket_of (fill t)) (fst (shows_of (fill t))) (snd (shows_of (fill t)))).
  split; [reflexivity|]. split; [reflexivity|]. split; [apply looks_read|]. repeat split; reflexivity.
Qed.
Print Assumptions C137_numbers_refuted.
Theorem C137_hidden_place_refuted : exists t t', number 3 (a_num (fill t)) (t_num t') /\ number 2 (a_base (fill t)) (t_base t') /\ looks (fill t) t' /\
  ~ seen t /\ t_place t = Some (S_ "above") /\ t_place t' = None.
Proof.
  set (t := mkTup 3 2 None (Some (S_ "above")) BFalse None None).
  exists t, (mkTup 3 2 None (place_of (fill t)) (bracket_of (fill t)) (fst (shows_of (fill t))) (snd (shows_of (fill t)))).
  split; [reflexivity|]. split; [reflexivity|]. split; [apply looks_read|]. split; [intros [C | [C | C]]; apply C; reflexivity|]. split; reflexivity.
Qed.
Print Assumptions C137_hidden_place_refuted.
