(** Ornaments and fermatas written to MEI are read as they were meant: C126
    (ornaments), C127 (fermatas), C128 (wavy lines of trills), C129 (expressions at a
    time stamp). *)
From Coq Require Import List ZArith NArith QArith Ascii String Bool Lia Permutation.
From Verif Require Import PyStr PyStrProofs ClefModel MeiIdsModel PropsMeiIds MeiOrnModel MeiOrnProofs MeiOrnProofs2.
Import ListNotations.
Local Close Scope Q_scope.
Local Open Scope nat_scope.
Local Open Scope bool_scope.
Local Open Scope list_scope.

(** ** C126: ornaments *)

(** The accidentals that MEI has. *)
Definition known : list str :=
  [S_ "natural"; S_ "sharp"; S_ "double-sharp"; S_ "triple-sharp"; S_ "flat"; S_ "double-flat"; S_ "triple-flat";
   S_ "half-sharp"; S_ "one-and-a-half-sharp"; S_ "half-flat"; S_ "one-and-a-half-flat"].
Definition plain (o : option accid) : Prop := match o with None => True | Some a => In (a_name a) known /\ a_shown a = true end.

(** Where an expression is placed: above or below the staff, or not said. *)
Inductive placed (k : look) : option str -> Prop :=
| placed_nowhere : k_place k = None -> placed k None
| placed_unsaid : k_place k = Some None -> k_absY k = None \/ k_absY k = Some 0%Z -> placed k None
| placed_said p : k_place k = Some (Some p) -> p = S_ "above" \/ p = S_ "below" /\ k_align k <> S_ "middle" -> placed k (Some p)
| placed_high y : k_place k = Some None -> k_absY k = Some y -> (0 < y)%Z -> placed k (Some (S_ "above"))
| placed_low y : k_place k = Some None -> k_absY k = Some y -> (y < 0)%Z -> k_align k <> S_ "middle" -> placed k (Some (S_ "below")).

Definition ordinary (k : look) : Prop := (exists p, placed k p) /\ k_hide k = false /\ k_color k = [].
Definition looks_same (k k' : look) : Prop := (exists p, placed k p /\ placed k' p) /\ k_hide k = k_hide k' /\ k_color k = k_color k'.

Inductive same_orn : mexpr -> mexpr -> Prop :=
| same_trill up a k k' : looks_same k k' -> same_orn (MTrill up a k) (MTrill up a k')
| same_mordent up a k k' : looks_same k k' -> same_orn (MMordent up a k) (MMordent up a k')
| same_turn i u l d k k' : looks_same k k' -> same_orn (MTurn i u l d k) (MTurn i u l d k').

Definition timed (d : delay) : Prop := match d with Timed _ => True | _ => False end.
(** Wavy lines that start at the trill say nothing else about the place. *)
Definition agrees (xs : list ext) (id : str) (k : look) : Prop :=
  forall x, In x xs -> hd_error (x_elems x) = Some id -> placed (x_look x) None \/ exists p, placed k p /\ placed (x_look x) p.
Definition writable (xs : list ext) (id : str) (e : mexpr) : Prop :=
  match e with
  | MTrill up a k => up = Some true /\ plain a /\ ordinary k /\ agrees xs id k
  | MMordent up a k => up <> None /\ plain a /\ ordinary k
  | MTurn i u l d k => plain u /\ plain l /\ ~ timed d /\ ordinary k
  | _ => True
  end.

Lemma placed_mei k p : placed k p -> placementToMei k = match p with Some p => p | None => [] end.
Proof.
  unfold placementToMei. intros [H | H Y | q H Q | y H Y L | y H Y L A]; rewrite H; try reflexivity.
  - destruct Y as [Y | Y]; rewrite Y; reflexivity.
  - destruct Q as [-> | [-> A]]; [reflexivity|]. apply str_eqb_neq in A. rewrite A. reflexivity.
  - rewrite Y. apply Z.ltb_lt in L. rewrite L. reflexivity.
  - rewrite Y. replace (0 <? y)%Z with false by (symmetry; apply Z.ltb_ge; lia). apply Z.ltb_lt in L. rewrite L. apply str_eqb_neq in A. rewrite A. reflexivity.
Qed.
Lemma placed_text k p : placed k (Some p) -> p = S_ "above" \/ p = S_ "below".
Proof. intros H. inversion H; subst; tauto. Qed.

Lemma place_of_placed k p d : placed k p -> place_of k d = match p with Some p => p | None => d end.
Proof.
  intros H. unfold place_of. rewrite (placed_mei k p H). destruct p as [p|]; [|reflexivity]. destruct (placed_text k p H) as [-> | ->]; reflexivity.
Qed.
Lemma read_place k p : placed k p -> ordinary k ->
  place_of k (S_ "place_unspecified") <> [] /\ looks_same k (place_look (place_of k (S_ "place_unspecified"))).
Proof.
  intros H (_ & Hh & Hc). rewrite (place_of_placed k p _ H). destruct p as [p|].
  - destruct (placed_text k p H) as [-> | ->]; (split; [differs|]); (split; [|split; [exact Hh|exact Hc]]); eexists; (split; [exact H|]);
      apply placed_said; try reflexivity; [left; reflexivity|right; split; [reflexivity|cbn; differs]].
  - split; [differs|]. split; [|split; [exact Hh|exact Hc]]. exists None. split; [exact H|]. apply placed_unsaid; [reflexivity|left; reflexivity].
Qed.

Lemma accid_round n : In n known -> exists c m, accidToMei n = c :: m /\ readAccid (c :: m) = Some (Accid n true).
Proof. intros H. repeat (destruct H as [<- | H]; [eexists; eexists; split; reflexivity|]). destruct H. Qed.
Lemma shown_round o : plain o -> optAccid (shown o) = o.
Proof.
  destruct o as [[n s]|]; [|reflexivity]. cbn [plain a_name a_shown]. intros [K ->]. unfold shown. cbn [a_shown a_name].
  destruct (accid_round n K) as (c & m & E & R). rewrite E. exact R.
Qed.
Lemma first_round up o : plain o -> firstAccid (upper_of up o) (lower_of up o) = o.
Proof. intros H. pose proof (shown_round o H) as R. unfold firstAccid, upper_of, lower_of. destruct up as [[|]|]; destruct (shown o); exact R. Qed.

Lemma filter_split {A} (p : A -> bool) l : length (filter p l) <= 1 ->
  existsb p l = false \/ exists l1 x l2, l = l1 ++ x :: l2 /\ p x = true /\ existsb p l1 = false /\ existsb p l2 = false.
Proof.
  induction l as [|x l IH]; intros H; [left; reflexivity|]. cbn [filter] in H. destruct (p x) eqn:P.
  - cbn [length] in H. right. exists [], x, l. split; [reflexivity|]. split; [exact P|]. split; [reflexivity|].
    apply not_true_is_false. intros E. apply existsb_exists in E as (y & I & Y). assert (J : In y (filter p l)) by (apply filter_In; split; assumption).
    destruct (filter p l); [destruct J|cbn [length] in H; lia].
  - destruct (IH H) as [E | (l1 & y & l2 & E & Py & E1 & E2)]; [left; cbn [existsb]; rewrite P; exact E|].
    right. exists (x :: l1), y, l2. rewrite E. split; [reflexivity|]. split; [exact Py|]. split; [cbn [existsb]; rewrite P; exact E1|exact E2].
Qed.
Lemma filter_existsb {A} (p : A -> bool) l : existsb p l = false -> filter p l = [].
Proof. induction l as [|x l IH]; [reflexivity|]. cbn [existsb filter]. intros H. apply orb_false_iff in H as [H1 H2]. rewrite H1. apply IH, H2. Qed.
Lemma flat_existsb {A B} (p : A -> bool) (f : A -> list B) l : (forall x, p x = false -> f x = []) -> existsb p l = false -> flat_map f l = [].
Proof. intros F. induction l as [|x l IH]; [reflexivity|]. cbn [existsb flat_map]. intros H. apply orb_false_iff in H as [H1 H2]. rewrite (F x H1). apply IH, H2. Qed.
Lemma filter_one {A} (p : A -> bool) l1 x l2 : p x = true -> existsb p l1 = false -> existsb p l2 = false -> filter p (l1 ++ x :: l2) = [x].
Proof. intros P E1 E2. rewrite filter_app. cbn [filter]. rewrite P, !filter_existsb by assumption. reflexivity. Qed.
Lemma flat_one {A B} (p : A -> bool) (f : A -> list B) l1 x l2 : (forall x, p x = false -> f x = []) -> existsb p l1 = false -> existsb p l2 = false ->
  flat_map f (l1 ++ x :: l2) = f x.
Proof. intros F E1 E2. rewrite flat_map_app. cbn [flat_map]. rewrite !(flat_existsb p f) by assumption. apply app_nil_r. Qed.

(** The four readers, for a note of a written staff. *)
Section Note.
  Variable staff : str.
  Variable xs : list ext.
  Variable ns : list mnote.
  Variable n : mnote.
  Hypothesis D : NoDup (map n_id ns).
  Hypothesis I : In n ns.
  Hypothesis NE : n_id n <> [].
  Let at_n := after (preprocess (write_staff staff xs ns)) no_attrs (n_id n).

  Lemma trill_read : length (filter is_trill (n_exprs n)) <= 1 -> Forall (writable xs (n_id n)) (n_exprs n) ->
    Forall2 same_orn (filter is_trill (n_exprs n)) (opt_list (addTrill at_n)).
  Proof.
    intros L W. destruct (own_written staff xs ns n D I) as (_ & _ & _ & T0 & T1). unfold at_n.
    destruct (filter_split _ _ L) as [E | (l1 & x & l2 & E & P & E1 & E2)].
    - rewrite filter_existsb, addTrill_none by (try exact E; apply T0; exact E). constructor.
    - destruct x as [up a k| | | |]; try discriminate P. destruct (T1 l1 up a k l2 E E1 E2) as (e & O & TE).
      rewrite E in W. apply Forall_elt in W. cbn [writable] in W. destruct W as (-> & Pa & Or & Ag).
      rewrite E, filter_one by assumption. destruct Or as ((p & Pk) & Hh & Hc). assert (Or : ordinary k) by (split; [exists p; exact Pk|split; assumption]).
      destruct (read_place k p Pk Or) as [N1 N2].
      assert (G : get e "accidupper" [] = upper_of (Some true) a /\ get e "accidlower" [] = lower_of (Some true) a
                  /\ get e "place" (S_ "place_unspecified") = place_of k (S_ "place_unspecified")).
      { destruct TE as [(last & Q) | (x & Ix & Fx & Q)].
        - destruct (get_trill staff (n_id n) last (Some true) a k e Q) as (_ & _ & A & B & C). split; [exact A|]. split; [exact B|apply C].
        - destruct (get_trill_merged staff (n_id n) (last_id x) (Some true) a k (x_look x) e Q) as (_ & _ & A & B & C).
          split; [exact A|]. split; [exact B|]. rewrite C.
          assert (H : hd_error (x_elems x) = Some (n_id n)).
          { unfold is_first in Fx. destruct (x_elems x) as [|i l]; [discriminate|]. apply str_eqb_eq in Fx. rewrite Fx. reflexivity. }
          destruct (Ag x Ix H) as [Px | (q & Pq & Px)].
          + rewrite (place_of_placed (x_look x) None _ Px). reflexivity.
          + rewrite (place_of_placed (x_look x) q _ Px), !(place_of_placed k q _ Pq). destruct q; reflexivity. }
      destruct G as (G1 & G2 & G3).
      rewrite (addTrill_one _ _ e NE O) by (rewrite G3; exact N1). rewrite G1, G2, G3, first_round by exact Pa.
      constructor; [|constructor]. apply same_trill. exact N2.
  Qed.

  Lemma mordent_read : length (filter is_mordent (n_exprs n)) <= 1 -> Forall (writable xs (n_id n)) (n_exprs n) ->
    exists mo, addMordent at_n = Some mo /\ Forall2 same_orn (filter is_mordent (n_exprs n)) (opt_list mo).
  Proof.
    intros L W. destruct (own_written staff xs ns n D I) as (M & _). unfold at_n.
    assert (F : forall x, is_mordent x = false -> mordent_elts staff (n_id n) x = []) by (intros [| | | |]; try reflexivity; discriminate).
    destruct (filter_split _ _ L) as [E | (l1 & x & l2 & E & P & E1 & E2)].
    - rewrite filter_existsb by exact E. rewrite (flat_existsb is_mordent) in M by assumption. rewrite addMordent_none by exact M.
      exists None. split; [reflexivity|constructor].
    - destruct x as [|up a k| | |]; try discriminate P. rewrite E, (flat_one is_mordent) in M by assumption. cbn [mordent_elts] in M.
      rewrite E in W. apply Forall_elt in W. cbn [writable] in W. destruct W as (U & Pa & Or). pose proof Or as ((p & Pk) & _).
      destruct (read_place k p Pk Or) as [N1 N2]. rewrite E, filter_one by assumption.
      destruct (get_mordent staff (n_id n) up a k _ eq_refl) as (_ & _ & A & B & Fo & C).
      assert (FF : formFrom (upper_of up a) (lower_of up a) (form_of up) = form_of up) by (destruct up as [[|]|]; [reflexivity|reflexivity|contradiction]).
      rewrite (addMordent_one _ _ _ NE M); rewrite ?A, ?B, ?Fo, ?FF, ?C; [|exact N1|].
      + eexists. split; [reflexivity|]. constructor; [|constructor]. rewrite first_round by exact Pa.
        replace (Some (str_eqb (form_of up) (S_ "upper"))) with up by (destruct up as [[|]|]; [reflexivity|reflexivity|contradiction]).
        apply same_mordent. exact N2.
      + destruct up as [[|]|]; [left; reflexivity|right; reflexivity|contradiction].
  Qed.

  Lemma turn_read : length (filter is_turn (n_exprs n)) <= 1 -> Forall (writable xs (n_id n)) (n_exprs n) ->
    Forall2 same_orn (filter is_turn (n_exprs n)) (opt_list (addTurn at_n)).
  Proof.
    intros L W. destruct (own_written staff xs ns n D I) as (_ & M & _). unfold at_n.
    assert (F : forall x, is_turn x = false -> turn_elts staff (n_id n) x = []) by (intros [| | | |]; try reflexivity; discriminate).
    destruct (filter_split _ _ L) as [E | (l1 & x & l2 & E & P & E1 & E2)].
    - rewrite filter_existsb by exact E. rewrite (flat_existsb is_turn) in M by assumption. rewrite addTurn_none by exact M. constructor.
    - destruct x as [| |inv u l d k| |]; try discriminate P. rewrite E, (flat_one is_turn) in M by assumption. cbn [turn_elts] in M.
      rewrite E in W. apply Forall_elt in W. cbn [writable] in W. destruct W as (Pu & Pl & Td & Or). pose proof Or as ((p & Pk) & _).
      destruct (read_place k p Pk Or) as [N1 N2]. rewrite E, filter_one by assumption.
      destruct (get_turn staff (n_id n) inv u l d k _ eq_refl) as (_ & _ & A & B & Fo & _ & De & C).
      rewrite (addTurn_one _ _ _ NE M); rewrite ?A, ?B, ?Fo, ?De, ?C; [|exact N1|destruct inv; differs].
      constructor; [|constructor]. rewrite !shown_round by assumption.
      replace (negb (str_eqb (if inv then S_ "lower" else S_ "upper") (S_ "upper"))) with inv by (destruct inv; reflexivity).
      replace (if str_eqb (delayed_of d) (S_ "true") then DefaultDelay else NoDelay) with d by (destruct d; [reflexivity|reflexivity|destruct Td; exact Logic.I]).
      apply same_turn. exact N2.
  Qed.

  Lemma form_kept es : Forall (fun e => get e "form" [] = [] \/ get e "form" [] = S_ "upper" \/ get e "form" [] = S_ "lower") es ->
    forall m i, (let f := match m i (S_ "m21MordentForm") with Some v => v | None => [] end in f = [] \/ f = S_ "upper" \/ f = S_ "lower") ->
    let f := match fold_left ppMordent es m i (S_ "m21MordentForm") with Some v => v | None => [] end in f = [] \/ f = S_ "upper" \/ f = S_ "lower".
  Proof.
    induction 1 as [|e es H _ IH]; intros m i M; [exact M|]. cbn [fold_left]. apply IH.
    destruct (str_eq_dec i (start_of e)) as [-> | N]; [|rewrite mordent_local by exact N; exact M].
    unfold ppMordent. destruct (start_of e); [exact M|]. others. destruct H as [H | [H | H]]; rewrite H; [exact M|right; left; reflexivity|right; right; reflexivity].
  Qed.

  Lemma mordent_some : exists mo, addMordent at_n = Some mo.
  Proof.
    destruct (own_written staff xs ns n D I) as (M & _). unfold addMordent, at_n.
    destruct (val _ "m21Mordent"); [eexists; reflexivity|].
    assert (F : let f := val (after (preprocess (write_staff staff xs ns)) no_attrs (n_id n)) "m21MordentForm" in f = [] \/ f = S_ "upper" \/ f = S_ "lower").
    { unfold val. rewrite after_own, pre_mordent, M by inn. apply form_kept.
      - clear M. induction (n_exprs n) as [|e es IH]; [constructor|]. cbn [flat_map]. apply Forall_app. split; [|exact IH].
        destruct e as [|up aa k| | |]; try constructor; [|constructor]. destruct (get_mordent staff (n_id n) up aa k _ eq_refl) as (_ & _ & _ & _ & Fo & _).
        rewrite Fo. destruct up as [[|]|]; [right; left|right; right|left]; reflexivity.
      - rewrite m3_other by outside. left. reflexivity. }
    destruct (val _ "m21MordentAccidUpper"), (val _ "m21MordentAccidLower"); destruct F as [F | [F | F]]; rewrite F; eexists; reflexivity.
  Qed.
End Note.

Lemma opt_nil (o : option mexpr) : opt_list o = [] \/ exists x, opt_list o = [x].
Proof. destruct o as [x|]; [right; exists x; reflexivity|left; reflexivity]. Qed.

(** What a kind keeps of what is read. *)
Lemma kinds_read nt mo : addMordent nt = Some mo ->
  exists rs, read_note nt = Some rs
    /\ filter is_fermata rs = opt_list (readFermata nt) /\ filter is_trill rs = opt_list (addTrill nt)
    /\ filter is_mordent rs = opt_list mo /\ filter is_turn rs = opt_list (addTurn nt).
Proof.
  intros H. unfold read_note. rewrite H. eexists. split; [reflexivity|].
  unfold readFermata, addTrill, addTurn. unfold addMordent in H.
  destruct (nt (S_ "fermata")) as [v|]; [unfold makeFermata|]; destruct (val nt "m21Trill"), (val nt "m21Turn");
    (assert (M : mo = None \/ exists u a k, mo = Some (MMordent u a k));
     [destruct (val nt "m21Mordent"); [left; congruence|];
      repeat match type of H with context[if ?b then _ else _] => destruct b end; try discriminate H; right; injection H as <-; do 3 eexists; reflexivity|];
     destruct M as [-> | (u & aa & k & ->)]; repeat split; reflexivity).
Qed.

(** C126.  A trill, a mordent and a turn on a note or chord are read from the file with
    their direction, accidentals, delay and place; the notes in between, and other
    expressions, do not matter.  Missing: two ornaments of a kind on one note, inverted
    trills, accidentals that are not displayed, delays of a given length, hidden and
    coloured ornaments; see below. *)
Theorem C126_ornaments_partial : forall staff xs ns n,
  NoDup (map n_id ns) -> In n ns -> n_id n <> [] ->
  (forall kind, In kind [is_trill; is_mordent; is_turn] -> length (filter kind (n_exprs n)) <= 1) ->
  Forall (writable xs (n_id n)) (n_exprs n) ->
  exists rs, reread (write_staff staff xs ns) (n_id n) = Some rs
    /\ forall kind, In kind [is_trill; is_mordent; is_turn] -> Forall2 same_orn (filter kind (n_exprs n)) (filter kind rs).
Proof.
  intros staff xs ns n D I NE L W.
  destruct (mordent_read staff xs ns n D I NE (L is_mordent ltac:(inn)) W) as (mo & M & FM).
  destruct (kinds_read _ mo M) as (rs & R & _ & T & Mo & Tu). exists rs. split; [exact R|].
  intros kind [<- | [<- | [<- | []]]].
  - rewrite T. apply trill_read; try assumption. apply L. inn.
  - rewrite Mo. exact FM.
  - rewrite Tu. apply turn_read; try assumption. apply L. inn.
Qed.
Print Assumptions C126_ornaments_partial.

Definition usual (p : option str) : look := Look (Some p) [] None false [].
Definition sharp : option accid := Some (Accid (S_ "sharp") true).

Example C126_ornaments_nonvacuous :
  reread (write_staff (S_ "1") []
    [MNote (S_ "a") [MTrill (Some true) sharp (usual (Some (S_ "above")))];
     MNote (S_ "b") [MTurn true None (Some (Accid (S_ "flat") true)) DefaultDelay (usual (Some (S_ "below"))); MOther; MMordent (Some false) None (usual None)]]) (S_ "b")
  = Some [MMordent (Some false) None (usual None); MTurn true None (Some (Accid (S_ "flat") true)) DefaultDelay (usual (Some (S_ "below")))].
Proof. vm_compute. reflexivity. Qed.

(** Written files can always be read, whatever stands on the notes; and a note without
    ornaments and fermata, or of another staff, is read without. *)
Theorem C126_readable : forall staff xs ns,
  NoDup (map n_id ns) ->
  (forall n, In n ns -> exists rs, reread (write_staff staff xs ns) (n_id n) = Some rs /\
     (existsb (fun e => is_trill e || is_mordent e || is_turn e || is_fermata e) (n_exprs n) = false -> rs = []))
  /\ (forall i, ~ In i (map n_id ns) -> reread (write_staff staff xs ns) i = Some []).
Proof.
  intros staff xs ns D. split.
  - intros n I. destruct (mordent_some staff xs ns n D I) as (mo & M). destruct (kinds_read _ mo M) as (rs & R & _). exists rs. split; [exact R|].
    intros H. destruct (own_written staff xs ns n D I) as (Mo & Tu & Fe & Tr & _).
    assert (K : forall p, (forall e, p e = true -> is_trill e || is_mordent e || is_turn e || is_fermata e = true) -> existsb p (n_exprs n) = false).
    { intros p P. apply not_true_is_false. intros E. apply existsb_exists in E as (e & Ie & Pe). apply not_true_iff_false in H. apply H.
      apply existsb_exists. exists e. split; [exact Ie|apply P, Pe]. }
    assert (Kt : existsb is_trill (n_exprs n) = false) by (apply K; intros e ->; reflexivity).
    assert (Km : existsb is_mordent (n_exprs n) = false) by (apply K; intros e ->; rewrite orb_true_r; reflexivity).
    assert (Ku : existsb is_turn (n_exprs n) = false) by (apply K; intros e ->; rewrite orb_true_r; reflexivity).
    assert (Kf : existsb is_fermata (n_exprs n) = false) by (apply K; intros e ->; rewrite orb_true_r; reflexivity).
    rewrite (flat_existsb is_mordent) in Mo by (try exact Km; intros [| | | |]; try reflexivity; discriminate).
    rewrite (flat_existsb is_turn) in Tu by (try exact Ku; intros [| | | |]; try reflexivity; discriminate).
    rewrite (flat_existsb is_fermata) in Fe by (try exact Kf; intros [| | | |]; try reflexivity; discriminate).
    unfold read_note in R. rewrite readFermata_none, addTrill_none, addMordent_none, addTurn_none in R by (try assumption; apply Tr, Kt).
    injection R as <-. reflexivity.
  - intros i N. unfold reread, read_note. rewrite addMordent_none, readFermata_none, addTrill_none, addTurn_none by (apply own_absent, N). reflexivity.
Qed.
Print Assumptions C126_readable.

(** False beyond that: of two mordents on a note one is made, with the direction of
    one and the accidental of the other. *)
Theorem C126_two_mordents_refuted : exists staff ns n rs,
  NoDup (map n_id ns) /\ In n ns /\ n_id n <> [] /\ Forall (writable [] (n_id n)) (n_exprs n)
  /\ n_exprs n = [MMordent (Some true) sharp (usual None); MMordent (Some false) None (usual None)]
  /\ reread (write_staff staff [] ns) (n_id n) = Some rs /\ rs = [MMordent (Some false) sharp (usual None)].
Proof.
  exists (S_ "1"), [MNote (S_ "a") [MMordent (Some true) sharp (usual None); MMordent (Some false) None (usual None)]].
  eexists. eexists. split; [repeat constructor; intros []|]. split; [left; reflexivity|]. split; [discriminate|]. split.
  - assert (O : ordinary (usual None)) by (split; [exists None; apply placed_unsaid; [reflexivity|left; reflexivity]|split; reflexivity]).
    constructor; [|constructor; [|constructor]]; (split; [discriminate|]); (split; [|exact O]); [|exact Logic.I].
    split; [unfold known; repeat (first [left; reflexivity | right])|reflexivity].
  - split; [reflexivity|]. split; reflexivity.
Qed.
Print Assumptions C126_two_mordents_refuted.

(** An inverted trill comes back as an ordinary one; an accidental that is not
    displayed, or that MEI does not have, is gone; a turn with a delay of some length
    has the default delay; and what was hidden or coloured is not. *)
Definition alone_read (e : mexpr) : option (list mexpr) := reread (write_staff (S_ "1") [] [MNote (S_ "a") [e]]) (S_ "a").
Theorem C126_lost_refuted :
  (exists a k, alone_read (MTrill (Some false) a k) = Some [MTrill (Some true) a k])
  /\ (exists x k, a_shown x = false /\ alone_read (MTrill (Some true) (Some x) k) = Some [MTrill (Some true) None k])
  /\ (exists x k, a_shown x = true /\ a_name x = S_ "quadruple-sharp" /\ alone_read (MTrill (Some true) (Some x) k) = Some [MTrill (Some true) None k])
  /\ (exists q k, alone_read (MTurn false None None (Timed q) k) = Some [MTurn false None None DefaultDelay k])
  /\ (exists k k', k_hide k = true /\ k_color k <> [] /\ alone_read (MTurn false None None NoDelay k) = Some [MTurn false None None NoDelay k']
      /\ k_hide k' = false /\ k_color k' = []).
Proof.
  split; [exists sharp, (usual None); reflexivity|]. split; [exists (Accid (S_ "sharp") false), (usual None); split; reflexivity|].
  split; [exists (Accid (S_ "quadruple-sharp") true), (usual None); repeat split; reflexivity|].
  split; [exists (1 # 2)%Q, (usual None); reflexivity|].
  exists (Look (Some None) [] None true (S_ "#FF0000")), (usual None). split; [reflexivity|]. split; [discriminate|]. repeat split; reflexivity.
Qed.
Print Assumptions C126_lost_refuted.

(** ** C127: fermatas *)

(** Fermatas of the three shapes that MEI has, and no upright ones below the staff. *)
Definition fermata_ok (e : mexpr) : Prop :=
  match e with
  | MFermata i s k => s <> OtherShape /\ ordinary k /\ (i = false -> ~ placed k (Some (S_ "below")))
  | _ => True
  end.
Inductive kept_fermata : mexpr -> mexpr -> Prop :=
| kept i s k k' : (forall p, placed k (Some p) -> placed k' (Some p)) -> k_hide k' = k_hide k -> k_color k' = k_color k ->
    kept_fermata (MFermata i s k) (MFermata i s k').

Lemma placed_fun k p q : placed k p -> placed k q -> p = q.
Proof.
  intros H G. destruct H as [H | H Y | p H Q | y H Y L | y H Y L A], G as [G | G Y' | p' G Q' | y' G Y' L' | y' G Y' L' A']; try congruence;
    try reflexivity; try (rewrite G in H; injection H as ->; reflexivity); try (rewrite H in G; injection G as <-; reflexivity);
    try (destruct Y as [Y | Y]; rewrite Y in Y'; try discriminate Y'; injection Y' as <-; lia);
    try (destruct Y' as [Y' | Y']; rewrite Y' in Y; try discriminate Y; injection Y as <-; lia);
    try (rewrite Y in Y'; injection Y' as <-; lia).
Qed.

Lemma fermata_kept i s k : fermata_ok (MFermata i s k) ->
  kept_fermata (MFermata i s k) (makeFermata (place_of k (S_ "above")) (inv_of i) (shape_of s)).
Proof.
  intros (Ns & ((p & Pk) & Hh & Hc) & B). rewrite (place_of_placed k p _ Pk). unfold makeFermata.
  assert (Sh : (if str_eqb (shape_of s) (S_ "angular") then Angled else if str_eqb (shape_of s) (S_ "square") then SquareShape else Normal) = s)
    by (destruct s; try reflexivity; contradiction).
  rewrite Sh. clear Sh.
  assert (Q : match p with Some p => p | None => S_ "above" end = S_ "above" \/ match p with Some p => p | None => S_ "above" end = S_ "below" /\ p = Some (S_ "below")).
  { destruct p as [p|]; [|left; reflexivity]. destruct (placed_text k p Pk) as [-> | ->]; [left; reflexivity|right; split; reflexivity]. }
  assert (P2 : forall q, placed k (Some q) -> match p with Some p => p | None => S_ "above" end = q).
  { intros q Hq. rewrite (placed_fun k p (Some q) Pk Hq). reflexivity. }
  set (v := match p with Some p => p | None => S_ "above" end) in *.
  assert (R : exists k', makeFermata v (inv_of i) (shape_of s) = makeFermata v (inv_of i) (shape_of s)
    /\ k' = Look (if one_of v [S_ "above"; S_ "below"] then Some (Some v) else None) [] None false []) by (eexists; split; reflexivity).
  clear R.
  replace (if str_eqb (inv_of i) (S_ "norm") then false else if str_eqb (inv_of i) (S_ "inv") then true else if str_eqb v (S_ "above") then false else str_eqb v (S_ "below"))
    with i.
  - constructor; [|symmetry; exact Hh|symmetry; exact Hc]. intros q Hq. specialize (P2 q Hq). rewrite P2 in *.
    apply placed_said.
    + cbn [k_place]. destruct (placed_text k q Hq) as [-> | ->]; reflexivity.
    + destruct (placed_text k q Hq) as [-> | ->]; [left; reflexivity|right; split; [reflexivity|cbn; differs]].
  - destruct i; [reflexivity|]. destruct Q as [Q | [Q Q']]; rewrite Q; [reflexivity|]. rewrite Q' in Pk. destruct (B eq_refl Pk).
Qed.

(** C127.  A fermata on a note, chord or rest is read from the file as one with its
    type, shape and place, whatever else stands there.  Missing: upright fermatas
    below the staff, several fermatas, hidden and coloured ones; and an inverted
    fermata that is given no place gets one; see below. *)
Theorem C127_fermatas_partial : forall staff xs ns n,
  NoDup (map n_id ns) -> In n ns -> n_id n <> [] -> length (filter is_fermata (n_exprs n)) <= 1 -> Forall fermata_ok (n_exprs n) ->
  exists rs, reread (write_staff staff xs ns) (n_id n) = Some rs
    /\ Forall2 kept_fermata (filter is_fermata (n_exprs n)) (filter is_fermata rs)
    /\ Forall2 kept_fermata (filter is_fermata (n_exprs n)) (read_rest (after (preprocess (write_staff staff xs ns)) no_attrs (n_id n))).
Proof.
  intros staff xs ns n D I NE L W. destruct (mordent_some staff xs ns n D I) as (mo & M). destruct (kinds_read _ mo M) as (rs & R & Fe & _).
  exists rs. split; [exact R|]. rewrite Fe. unfold read_rest.
  enough (H : Forall2 kept_fermata (filter is_fermata (n_exprs n)) (opt_list (readFermata (after (preprocess (write_staff staff xs ns)) no_attrs (n_id n)))))
    by (split; exact H).
  destruct (own_written staff xs ns n D I) as (_ & _ & F & _).
  assert (Z : forall x, is_fermata x = false -> fermata_elts staff (n_id n) x = []) by (intros [| | | |]; try reflexivity; discriminate).
  destruct (filter_split _ _ L) as [E | (l1 & x & l2 & E & P & E1 & E2)].
  - rewrite filter_existsb by exact E. rewrite (flat_existsb is_fermata) in F by assumption. rewrite readFermata_none by exact F. constructor.
  - destruct x as [| | |i s k|]; try discriminate P. rewrite E, (flat_one is_fermata) in F by assumption. cbn [fermata_elts] in F.
    rewrite E in W. apply Forall_elt in W. rewrite E, filter_one by assumption. rewrite (readFermata_one _ _ _ NE F).
    destruct (get_fermata staff (n_id n) i s k _ eq_refl) as (_ & _ & A & B & C). rewrite A, B, C. constructor; [|constructor]. apply fermata_kept, W.
Qed.
Print Assumptions C127_fermatas_partial.

Example C127_fermatas_nonvacuous :
  reread (write_staff (S_ "1") [] [MNote (S_ "a") [MOther; MFermata true SquareShape (usual (Some (S_ "below"))); MTrill (Some true) None (usual None)]]) (S_ "a")
  = Some [MFermata true SquareShape (usual (Some (S_ "below"))); MTrill (Some true) None (usual None)].
Proof. vm_compute. reflexivity. Qed.

(** False beyond that: an upright fermata below the staff comes back inverted; an
    inverted one without a place comes back above the staff; one of two is lost; a
    hidden one is seen. *)
Theorem C127_refuted :
  (exists k, placed k (Some (S_ "below")) /\ alone_read (MFermata false Normal k) = Some [MFermata true Normal k])
  /\ (exists k k', placed k None /\ alone_read (MFermata true Normal k) = Some [MFermata true Normal k'] /\ placed k' (Some (S_ "above")))
  /\ (exists k k', reread (write_staff (S_ "1") [] [MNote (S_ "a") [MFermata false Normal k; MFermata true Normal k']]) (S_ "a") = Some [MFermata true Normal k'])
  /\ (exists k k', k_hide k = true /\ alone_read (MFermata false Normal k) = Some [MFermata false Normal k'] /\ k_hide k' = false).
Proof.
  split; [exists (usual (Some (S_ "below"))); split; [apply placed_said; [reflexivity|right; split; [reflexivity|cbn; differs]]|reflexivity]|].
  split; [exists (usual None), (usual (Some (S_ "above"))); split; [apply placed_unsaid; [reflexivity|left; reflexivity]|]; split;
          [reflexivity|apply placed_said; [reflexivity|left; reflexivity]]|].
  split; [exists (usual (Some (S_ "above"))), (usual (Some (S_ "below"))); reflexivity|].
  exists (Look (Some None) [] None true []), (usual (Some (S_ "above"))). repeat split; reflexivity.
Qed.
Print Assumptions C127_refuted.

(** ** C128: wavy lines *)

Definition from_id (x : ext) : str := hd [] (x_elems x).
Definition to_id (x : ext) : str := last (x_elems x) [].

(** A line with at least two notes, in the order of the notes, whose first note has one
    trill, and those between the first and the last none. *)
Definition wavy (ns : list mnote) (x : ext) : Prop :=
  exists f mid l a b c, x_elems x = f :: mid ++ [l] /\ map n_id ns = a ++ f :: b ++ l :: c /\ incl mid b
    /\ (forall n, In n ns -> n_id n = f -> length (filter is_trill (n_exprs n)) = 1)
    /\ (forall n, In n ns -> In (n_id n) mid -> existsb is_trill (n_exprs n) = false).

Lemma NoDup_split_eq {A} (l1 l2 l1' l2' : list A) x : NoDup (l1 ++ x :: l2) -> l1 ++ x :: l2 = l1' ++ x :: l2' -> l1 = l1' /\ l2 = l2'.
Proof.
  revert l1'. induction l1 as [|y l1 IH]; intros [|z l1'] D E; cbn [app] in *.
  - injection E as <-. split; reflexivity.
  - injection E as <- ->. apply NoDup_cons_iff in D as [N _]. destruct N. apply in_app_iff. right. left. reflexivity.
  - injection E as -> E. apply NoDup_cons_iff in D as [N _]. destruct N. apply in_app_iff. right. left. reflexivity.
  - injection E as <- E. apply NoDup_cons_iff in D as [_ D]. destruct (IH l1' D E) as [-> ->]. split; reflexivity.
Qed.

Lemma wavy_ends (ns : list mnote) x f mid l : x_elems x = f :: mid ++ [l] -> from_id x = f /\ to_id x = l.
Proof. intros E. unfold from_id, to_id. rewrite E. split; [reflexivity|]. rewrite app_comm_cons, last_last. reflexivity. Qed.

(** C128.  Wavy lines from trills to later notes, with different starts and different
    ends, are read from the file as lines from and to these notes, and there are no
    others.  Missing: lines of a single note, and trills between the first and the
    last note of a line; see below. *)
Theorem C128_lines_partial : forall staff xs ns,
  NoDup (map n_id ns) -> ~ In [] (map n_id ns) -> NoDup (map from_id xs) -> NoDup (map to_id xs) -> Forall (wavy ns) xs ->
  Permutation (map (fun x => [from_id x; to_id x]) xs) (read_lines (write_staff staff xs ns) (map n_id ns)).
Proof.
  intros staff xs ns D NE Df Dl Wv. rewrite Forall_forall in Wv.
  assert (La : forall x, In x xs -> last_id x <> [] /\ last_id x <> first_id x /\ x_elems x <> []).
  { intros x Ix. destruct (Wv x Ix) as (f & mid & l & a & b & c & E & O & _). destruct (wavy_ends ns x f mid l E) as [F L].
    change (last_id x) with (to_id x). change (first_id x) with (from_id x). rewrite F, L. split; [|split].
    - intros ->. apply NE. rewrite O. apply in_app_iff. right. right. apply in_app_iff. right. left. reflexivity.
    - intros ->. rewrite O in D. apply NoDup_remove_2 in D. apply D. apply in_app_iff. right. apply in_app_iff. right. left. reflexivity.
    - rewrite E. discriminate. }
  assert (Ls : lines (write_staff staff xs ns) = flat_map (line_at xs) (map n_id ns)).
  { unfold write_staff. rewrite (all_lines staff xs Df La ns [] (W [] [] [])); [reflexivity|exact D|intros j x []| | |].
    - intros n In' (x & Ix & Fx). destruct (Wv x Ix) as (f & mid & l & a & b & c & E & O & _ & T & _). destruct (wavy_ends ns x f mid l E) as [F _].
      apply T; [exact In'|]. change (first_id x) with (from_id x) in Fx. congruence.
    - intros n In' x Ix Ie Tr. destruct (Wv x Ix) as (f & mid & l & a & b & c & E & O & _ & _ & T). destruct (wavy_ends ns x f mid l E) as [F L].
      change (last_id x) with (to_id x). change (first_id x) with (from_id x). rewrite F, L. rewrite E in Ie. destruct Ie as [Ie | Ie]; [left; exact Ie|].
      apply in_app_iff in Ie as [Ie | [Ie | []]]; [|right; exact Ie]. rewrite (T n In' Ie) in Tr. discriminate.
    - intros a0 n c0 En x Ix Ie. cbn [app]. destruct (Wv x Ix) as (f & mid & l & a & b & c & E & O & Inc & _). destruct (wavy_ends ns x f mid l E) as [F _].
      change (first_id x) with (from_id x). rewrite F. rewrite E in Ie. destruct Ie as [Ie | Ie]; [left; exact Ie|]. right.
      assert (Ib : In (n_id n) (b ++ l :: c)).
      { apply in_app_iff in Ie as [Ie | [Ie | []]]; apply in_app_iff; [left; apply Inc, Ie|right; left; exact Ie]. }
      apply in_split in Ib as (u & v & Ev). rewrite En, map_app in O, D. cbn [map] in O, D. rewrite Ev in O.
      replace (a ++ f :: u ++ n_id n :: v) with ((a ++ f :: u) ++ n_id n :: v) in O by (rewrite <- app_assoc; reflexivity).
      destruct (NoDup_split_eq _ _ _ _ _ D O) as [-> _]. apply in_app_iff. right. left. reflexivity. }
  assert (Mem : forall p, In p (flat_map (line_at xs) (map n_id ns)) <-> In p (map (fun x => (from_id x, to_id x)) xs)).
  { intros p. rewrite in_flat_map, in_map_iff. split.
    - intros (i & Ii & Ip). unfold line_at in Ip. destruct (find (fun x => is_first x i) xs) as [x|] eqn:Fi; [|destruct Ip].
      destruct Ip as [<- | []]. apply find_some in Fi as [Ix Fx]. exists x. split; [|exact Ix]. f_equal. apply (first_is xs La x i Ix), Fx.
    - intros (x & <- & Ix). exists (from_id x). split.
      + destruct (Wv x Ix) as (f & mid & l & a & b & c & E & O & _). destruct (wavy_ends ns x f mid l E) as [-> _]. rewrite O. apply in_app_iff. right. left. reflexivity.
      + unfold line_at. assert (Fx : is_first x (from_id x) = true) by (apply (first_is xs La x _ Ix); reflexivity).
        destruct (find (fun x0 => is_first x0 (from_id x)) xs) as [y|] eqn:Fi.
        * apply find_some in Fi as [Iy Fy]. rewrite (first_unique xs Df La y x (from_id x) Iy Ix Fy Fx). left. reflexivity.
        * pose proof (find_none _ _ Fi x Ix) as N. cbn beta in N. congruence. }
  assert (N2 : NoDup (flat_map (line_at xs) (map n_id ns))).
  { clear Ls Mem NE Wv. revert D. induction (map n_id ns) as [|i ids IH]; intros D; [constructor|]. apply NoDup_cons_iff in D as [Ni D]. cbn [flat_map].
    unfold line_at at 1. destruct (find (fun x => is_first x i) xs) as [x|]; [|apply IH, D]. cbn [app]. constructor; [|apply IH, D].
    intros J. apply in_flat_map in J as (j & Ij & J). unfold line_at in J. destruct (find (fun x0 => is_first x0 j) xs); [|destruct J].
    destruct J as [J | []]. injection J as -> _. contradiction. }
  assert (N1 : NoDup (map (fun x => (from_id x, to_id x)) xs)).
  { apply (NoDup_map_inv fst). rewrite map_map. exact Df. }
  assert (Pm : Permutation (map (fun x => (from_id x, to_id x)) xs) (lines (write_staff staff xs ns))).
  { rewrite Ls. apply NoDup_Permutation; [exact N1|exact N2|]. intros p. symmetry. apply Mem. }
  rewrite lines_read.
  - apply (Permutation_map (fun fl : str * str => [fst fl; snd fl])) in Pm. rewrite map_map in Pm. exact Pm.
  - exact D.
  - exact NE.
  - apply (Permutation_NoDup (Permutation_map fst Pm)). rewrite map_map. exact Df.
  - apply (Permutation_NoDup (Permutation_map snd Pm)). rewrite map_map. exact Dl.
  - intros f l I. apply (Permutation_in _ (Permutation_sym Pm)) in I. apply in_map_iff in I as (x & E & Ix). injection E as <- <-.
    destruct (Wv x Ix) as (f & mid & l & a & b & c & E & O & _). destruct (wavy_ends ns x f mid l E) as [-> ->]. exists a, b, c. exact O.
Qed.
Print Assumptions C128_lines_partial.

Definition tr : mexpr := MTrill (Some true) None (usual None).
Example C128_lines_nonvacuous :
  let ns := [MNote (S_ "a") [tr]; MNote (S_ "b") []; MNote (S_ "c") [MOther; tr]; MNote (S_ "d") [tr]] in
  let xs := [Ext [S_ "c"; S_ "d"] (usual None); Ext [S_ "a"; S_ "b"; S_ "c"] (usual None)] in
  Forall (wavy ns) xs /\ read_lines (write_staff (S_ "1") xs ns) [S_ "a"; S_ "b"; S_ "c"; S_ "d"] = [[S_ "a"; S_ "c"]; [S_ "c"; S_ "d"]].
Proof.
  split; [|vm_compute; reflexivity]. constructor; [|constructor; [|constructor]].
  - exists (S_ "c"), [], (S_ "d"), [S_ "a"; S_ "b"], [], []. split; [reflexivity|]. split; [reflexivity|]. split; [intros i []|].
    split; [|intros n _ []]. intros n [<- | [<- | [<- | [<- | []]]]] E; try discriminate E; reflexivity.
  - exists (S_ "a"), [S_ "b"], (S_ "c"), [], [S_ "b"], [S_ "d"]. split; [reflexivity|]. split; [reflexivity|]. split; [intros i I; exact I|].
    split; [intros n [<- | [<- | [<- | [<- | []]]]] E; try discriminate E; reflexivity|].
    intros n [<- | [<- | [<- | [<- | []]]]] [E | []]; try discriminate E; reflexivity.
Qed.

(** False beyond that: the wavy line of a single note is lost; a trill on a note in
    the middle of a line gets a line of its own, and takes the end from it. *)
Theorem C128_refuted :
  (exists xs ns, xs <> [] /\ Forall (fun x => incl (x_elems x) (map n_id ns)) xs /\ Forall (fun n => n_exprs n = [tr]) ns
     /\ read_lines (write_staff (S_ "1") xs ns) (map n_id ns) = [])
  /\ (exists x ns l1 l2, NoDup (map n_id ns) /\ x_elems x = map n_id ns
     /\ read_lines (write_staff (S_ "1") [x] ns) (map n_id ns) = [l1; l2] /\ l1 = [from_id x] /\ ~ In (from_id x) l2 /\ In (to_id x) l2).
Proof.
  split.
  - exists [Ext [S_ "a"] (usual None)], [MNote (S_ "a") [tr]]. split; [discriminate|]. split; [constructor; [intros i I; exact I|constructor]|].
    split; [repeat constructor|vm_compute; reflexivity].
  - exists (Ext [S_ "a"; S_ "b"; S_ "c"] (usual None)), [MNote (S_ "a") [tr]; MNote (S_ "b") [tr]; MNote (S_ "c") []].
    exists [S_ "a"], [S_ "b"; S_ "c"]. split.
    + repeat constructor; cbn [map n_id In]; intros X; repeat (destruct X as [X | X]; [discriminate X|]); destruct X.
    + split; [reflexivity|]. split; [vm_compute; reflexivity|]. split; [reflexivity|].
      split; [intros [X | [X | []]]; discriminate X|right; left; reflexivity].
Qed.
Print Assumptions C128_refuted.

(** ** C129: expressions at a time stamp *)

(** Objects that can have the expression: notes and chords, and rests for fermatas. *)
Definition can_have (e : mexpr) (off : Q) (o : vobj) : Prop := (v_rest o = true -> is_fermata e = true) /\ Qeq (v_off o) off.

Lemma can_have_b e off o : (on_rest e || negb (v_rest o)) && Qeq_bool (v_off o) off = true <-> can_have e off o.
Proof.
  unfold can_have. rewrite andb_true_iff, Qeq_bool_iff. change (on_rest e) with (is_fermata e). destruct (is_fermata e), (v_rest o); cbn [orb negb]; tauto || (split; intros [A B]; split; auto; discriminate (A eq_refl)) .
Qed.

Lemma put_voice_none e off os : Forall (fun o => ~ can_have e off o) os -> put_voice e off os = None.
Proof.
  induction 1 as [|o os H _ IH]; [reflexivity|]. cbn [put_voice]. destruct (_ && _) eqn:E; [apply can_have_b in E; contradiction|]. rewrite IH. reflexivity.
Qed.
Lemma put_voice_some e off os1 o os2 : Forall (fun o => ~ can_have e off o) os1 -> can_have e off o ->
  put_voice e off (os1 ++ o :: os2) = Some (os1 ++ VObj (v_off o) (v_rest o) (v_exprs o ++ [e]) :: os2).
Proof.
  intros H C. induction H as [|o' os1 H _ IH]; cbn [app put_voice].
  - destruct (_ && _) eqn:E; [reflexivity|]. apply can_have_b in C. congruence.
  - destruct (_ && _) eqn:E; [apply can_have_b in E; contradiction|]. rewrite IH. reflexivity.
Qed.
Lemma put_voices_none e off rest : forall vs, Forall (Forall (fun o => ~ can_have e off o)) vs ->
  put_measure e off (map Voice vs ++ rest) = match put_measure e off rest with Some r => Some (map Voice vs ++ r) | None => None end.
Proof.
  induction 1 as [|os vs H _ IH]; [cbn [map app]; destruct (put_measure e off rest); reflexivity|]. cbn [map app put_measure].
  rewrite put_voice_none by exact H. rewrite IH. destruct (put_measure e off rest); reflexivity.
Qed.

(** C129.  The first note or chord at the offset, in the first voice that has one, gets
    the expression after those it has, and nothing else changes; a fermata can be
    on a rest as well. *)
Theorem C129_first_note : forall e off vs1 os1 o os2 vs2 bars,
  Forall (Forall (fun o => ~ can_have e off o)) vs1 -> Forall (fun o => ~ can_have e off o) os1 -> can_have e off o ->
  put_measure e off (map Voice (vs1 ++ (os1 ++ o :: os2) :: vs2) ++ bars)
  = Some (map Voice (vs1 ++ (os1 ++ VObj (v_off o) (v_rest o) (v_exprs o ++ [e]) :: os2) :: vs2) ++ bars).
Proof.
  intros e off vs1 os1 o os2 vs2 bars H1 H2 C. rewrite !map_app, <- !app_assoc, put_voices_none by exact H1. cbn [map app put_measure].
  rewrite put_voice_some by assumption. reflexivity.
Qed.
Print Assumptions C129_first_note.

Example C129_first_note_nonvacuous :
  put_measure tr 1 [Voice [VObj 0 false []; VObj 1 true []]; Voice [VObj 0 false [MOther]; VObj (2 # 2) false [MOther]; VObj 2 false []]; Bar None]
  = Some [Voice [VObj 0 false []; VObj 1 true []]; Voice [VObj 0 false [MOther]; VObj (2 # 2) false [MOther; tr]; VObj 2 false []]; Bar None].
Proof. vm_compute. reflexivity. Qed.

(** The fermata on the barline at the end of a measure comes back to it, if the
    measure has no barline at its beginning and nothing in it starts at its end. *)
Theorem C129_barline_partial : forall staff ts i s k off vs,
  fermata_ok (MFermata i s k) -> Forall (Forall (fun o => (v_off o < off)%Q)) vs ->
  exists e, kept_fermata (MFermata i s k) e
    /\ put_measure (fermataFromElement (Elt (S_ "fermata") ((S_ "staff", staff) :: (S_ "tstamp", ts) :: fermata_attrs i s k))) off (map Voice vs ++ [Bar None])
       = Some (map Voice vs ++ [Bar (Some e)]).
Proof.
  intros staff ts i s k off vs F H. set (e := Elt _ _).
  assert (G : get e "place" (S_ "above") = place_of k (S_ "above") /\ get e "form" [] = inv_of i /\ get e "shape" [] = shape_of s).
  { destruct (get_fermata staff [] i s k _ eq_refl) as (_ & _ & A & B & C). rewrite <- A, <- B, <- C. repeat split; reflexivity. }
  destruct G as (G1 & G2 & G3). exists (fermataFromElement e). split.
  - unfold fermataFromElement. rewrite G1, G2, G3. apply fermata_kept, F.
  - rewrite put_voices_none.
    + reflexivity.
    + eapply Forall_impl; [|exact H]. intros os Ho. eapply Forall_impl; [|exact Ho]. intros o L [_ Q]. apply (Qlt_not_eq _ _ L). exact Q.
Qed.
Print Assumptions C129_barline_partial.

Example C129_barline_nonvacuous :
  put_measure (fermataFromElement (Elt (S_ "fermata") ((S_ "staff", S_ "1") :: (S_ "tstamp", S_ "5") :: fermata_attrs true Angled (usual (Some (S_ "below")))))) 4
    [Voice [VObj 0 false []; VObj 2 true []]; Bar None]
  = Some [Voice [VObj 0 false []; VObj 2 true []]; Bar (Some (MFermata true Angled (usual (Some (S_ "below")))))].
Proof. vm_compute. reflexivity. Qed.

(** False with a barline at the beginning (a repeat, say), which gets the fermata; and
    with grace notes at the end of the measure, the first of which gets it. *)
Theorem C129_barline_refuted :
  (exists e off vs, is_fermata e = true /\ Forall (Forall (fun o => (v_off o < off)%Q)) vs
     /\ put_measure e off (map Voice vs ++ [Bar None; Bar None]) = Some (map Voice vs ++ [Bar (Some e); Bar None]))
  /\ (exists e off os o, is_fermata e = true /\ put_measure e off [Voice (os ++ [o]); Bar None] = Some [Voice (os ++ [VObj (v_off o) (v_rest o) [e]]); Bar None]).
Proof.
  split.
  - exists (MFermata false Normal (usual None)), 4%Q, [[VObj 0 false []]]. split; [reflexivity|]. split; [repeat constructor|vm_compute; reflexivity].
  - exists (MFermata false Normal (usual None)), 4%Q, [VObj 0 false []], (VObj 4 false []). split; [reflexivity|vm_compute; reflexivity].
Qed.
Print Assumptions C129_barline_refuted.

(** An ornament without a note at its time stamp is not put anywhere - also not a
    delayed turn, which is meant to sound after a note. *)
Theorem C129_between_notes_refuted : exists e off vs,
  turnFromElement e = MTurn false None None DefaultDelay (usual None) /\ Forall (Forall (fun o => v_rest o = false /\ (v_off o < off)%Q)) vs /\ vs <> []
  /\ put_measure (turnFromElement e) off (map Voice vs ++ [Bar None]) = None.
Proof.
  exists (Elt (S_ "turn") [(S_ "staff", S_ "1"); (S_ "tstamp", S_ "1.5"); (S_ "delayed", S_ "true")]), (1 # 2)%Q, [[VObj 0 false []]].
  split; [vm_compute; reflexivity|]. split; [repeat constructor|]. split; [discriminate|vm_compute; reflexivity].
Qed.
Print Assumptions C129_between_notes_refuted.

(** Whether an element says where it is by a note's id or by a time stamp, the same
    expression is made of it.  Missing: mordents that have neither form nor
    accidental, see below. *)
Definition by_id (t : string) (i : str) (a : list (str * str)) : elt := Elt (S_ t) ((S_ "startid", "#"%char :: i) :: a).
Definition by_time (t : string) (ts : str) (a : list (str * str)) : elt := Elt (S_ t) ((S_ "tstamp", ts) :: a).
Theorem C129_either_way_partial : forall i ts a,
  i <> [] -> ~ In (S_ "place", []) a ->
  reread [by_id "fermata" i a] i = Some [fermataFromElement (by_time "fermata" ts a)]
  /\ reread [by_id "trill" i a] i = Some [trillFromElement (by_time "trill" ts a)]
  /\ reread [by_id "turn" i a] i = Some [turnFromElement (by_time "turn" ts a)]
  /\ (assoc_str (S_ "form") a = Some (S_ "upper") \/ assoc_str (S_ "form") a = Some (S_ "lower")
      \/ assoc_str (S_ "form") a = None /\ (exists s v, In s ["accidupper"; "accidlower"]%string /\ assoc_str (S_ s) a = Some v /\ v <> []) ->
      reread [by_id "mordent" i a] i = Some [mordentFromElement (by_time "mordent" ts a)]).
Proof.
  intros i ts a NE NP.
  assert (Own : forall t u, own_elts t i [by_id u i a] = if str_eqb (S_ u) (S_ t) then [by_id u i a] else []).
  { intros t u. unfold own_elts. cbn [filter]. unfold is_tag, by_id. cbn [e_tag]. destruct (str_eqb (S_ u) (S_ t)); [|reflexivity]. cbn [filter].
    unfold at_note, start_of, get. cbn [e_attrs assoc_str]. change (str_eqb (S_ "startid") (S_ "startid")) with true. cbn [removeOctothorpe]. cbv iota.
    change (Ascii.eqb "#" "#") with true. cbv iota. rewrite str_eqb_refl. reflexivity. }
  assert (GE : forall t s d, S_ s <> S_ "startid" -> get (by_id t i a) s d = match assoc_str (S_ s) a with Some v => v | None => d end).
  { intros t s d N. unfold get, by_id. cbn [e_attrs assoc_str]. apply str_eqb_neq in N. rewrite ?(str_eqb_sym (S_ "startid")), N. reflexivity. }
  assert (GT : forall t s d, S_ s <> S_ "tstamp" -> get (by_time t ts a) s d = match assoc_str (S_ s) a with Some v => v | None => d end).
  { intros t s d N. unfold get, by_time. cbn [e_attrs assoc_str]. apply str_eqb_neq in N. rewrite ?(str_eqb_sym (S_ "tstamp")), N. reflexivity. }
  assert (PL : match assoc_str (S_ "place") a with Some v => v | None => S_ "place_unspecified" end <> []).
  { clear Own GE GT. induction a as [|[x v] a IH]; [discriminate|]. cbn [assoc_str]. destruct (str_eqb _ _) eqn:E.
    - apply str_eqb_eq in E. intros ->. apply NP. left. f_equal. congruence.
    - apply IH. intros X. apply NP. right. exact X. }
  split; [|split; [|split]].
  - unfold reread, read_note. rewrite addMordent_none, addTrill_none, addTurn_none by (rewrite Own; reflexivity).
    rewrite (readFermata_one _ _ (by_id "fermata" i a)) by (try exact NE; rewrite Own; reflexivity).
    unfold fermataFromElement. rewrite !GE, !GT by differs. reflexivity.
  - unfold reread, read_note. rewrite addMordent_none, readFermata_none, addTurn_none by (rewrite Own; reflexivity).
    rewrite (addTrill_one _ _ (by_id "trill" i a)) by (try exact NE; try (rewrite Own; reflexivity); rewrite GE by differs; exact PL).
    unfold trillFromElement. rewrite !GE, !GT by differs. reflexivity.
  - unfold reread, read_note. rewrite addMordent_none, readFermata_none, addTrill_none by (rewrite Own; reflexivity).
    unfold addTurn, val. rewrite !after_own, !pre_turn, Own by inn. change (str_eqb (S_ "turn") (S_ "turn")) with true. cbn [fold_left]. cbv iota.
    assert (S : start_of (by_id "turn" i a) = i) by (apply (own_start "turn" i [by_id "turn" i a] _ []); rewrite Own; reflexivity).
    unfold ppTurn. rewrite S. destruct i as [|c i]; [contradiction|]. others. rewrite !m4_other by outside.
    unfold turnFromElement. rewrite !GE, !GT by differs. cbn [val].
    destruct (assoc_str (S_ "place") a) as [[|p q]|]; [contradiction| |];
    destruct (assoc_str (S_ "form") a) as [[|]|], (assoc_str (S_ "type") a) as [[|]|], (assoc_str (S_ "accidupper") a) as [[|]|],
      (assoc_str (S_ "accidlower") a) as [[|]|], (assoc_str (S_ "delayed") a) as [[|]|]; reflexivity.
  - intros F. unfold reread, read_note. rewrite readFermata_none, addTrill_none, addTurn_none by (rewrite Own; reflexivity).
    rewrite (addMordent_one _ _ (by_id "mordent" i a)); [|exact NE|rewrite Own; reflexivity|rewrite GE by differs; exact PL|].
    + unfold mordentFromElement. rewrite !GE, !GT by differs. cbn [opt_list app]. f_equal. f_equal. f_equal. f_equal. f_equal.
      destruct F as [F | [F | (F & s & v & Is & Fs & Nv)]]; rewrite F; try reflexivity.
      destruct v as [|c v]; [contradiction|]. destruct Is as [<- | [<- | []]]; rewrite Fs; cbn [formFrom]; try reflexivity;
        destruct (assoc_str (S_ "accidupper") a) as [[|]|]; reflexivity.
    + cbn zeta. rewrite !GE by differs. destruct F as [F | [F | (F & s & v & Is & Fs & Nv)]]; rewrite F; [left; reflexivity|right; reflexivity|].
      cbn [formFrom]. destruct (assoc_str (S_ "accidupper") a) as [[|]|]; [right|left|right]; reflexivity.
Qed.
Print Assumptions C129_either_way_partial.

Example C129_either_way_nonvacuous :
  reread [by_id "mordent" (S_ "a") [(S_ "place", S_ "below"); (S_ "accidlower", S_ "s")]] (S_ "a") = Some [MMordent (Some false) sharp (usual (Some (S_ "below")))].
Proof. vm_compute. reflexivity. Qed.

(** False for a mordent with neither: with an id it is a lower, with a time stamp an
    upper one. *)
Theorem C129_either_way_refuted : exists i ts a e e',
  i <> [] /\ ~ In (S_ "place", []) a /\ reread [by_id "mordent" i a] i = Some [e] /\ mordentFromElement (by_time "mordent" ts a) = e'
  /\ e = MMordent (Some false) None (usual None) /\ e' = MMordent (Some true) None (usual None).
Proof.
  exists (S_ "a"), (S_ "1"), []. eexists. eexists. split; [discriminate|]. split; [intros []|]. repeat split; reflexivity.
Qed.
Print Assumptions C129_either_way_refuted.
