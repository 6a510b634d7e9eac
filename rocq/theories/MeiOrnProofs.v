(** Facts about the elements of MEI files for trills, mordents, turns and fermatas. *)
From Coq Require Import List ZArith NArith QArith Ascii String Bool Lia.
From Verif Require Import PyStr PyStrProofs ClefModel MeiIdsModel PropsMeiIds MeiOrnModel.
Import ListNotations.
Local Close Scope Q_scope.
Local Open Scope nat_scope.
Local Open Scope bool_scope.
Local Open Scope list_scope.

(** ** Attribute lists *)

Lemma assoc_app {V} k (l l' : list (str * V)) :
  assoc_str k (l ++ l') = match assoc_str k l with Some v => Some v | None => assoc_str k l' end.
Proof. induction l as [|[k' v] l IH]; cbn [app assoc_str]; [reflexivity|]. destruct (str_eqb k k'); [reflexivity|exact IH]. Qed.

Lemma assoc_filter_other {V} k k0 (l : list (str * V)) : k <> k0 ->
  assoc_str k (filter (fun y => negb (str_eqb (fst y) k0)) l) = assoc_str k l.
Proof.
  intros N. induction l as [|[k' v] l IH]; [reflexivity|]. cbn [filter fst]. destruct (str_eqb k' k0) eqn:E; cbn [negb].
  - cbn [assoc_str]. destruct (str_eqb k k') eqn:E'; [apply str_eqb_eq in E, E'; congruence|exact IH].
  - cbn [assoc_str]. destruct (str_eqb k k'); [reflexivity|exact IH].
Qed.

Lemma assoc_upd_other k l x : k <> fst x -> assoc_str k (upd l x) = assoc_str k l.
Proof.
  intros N. unfold upd. rewrite assoc_app, assoc_filter_other by exact N. destruct (assoc_str k l); [reflexivity|].
  destruct x as [k' v]. cbn [assoc_str fst] in *. destruct (str_eqb k k') eqn:E; [apply str_eqb_eq in E; contradiction|reflexivity].
Qed.

Lemma assoc_upds_other k xs : forall l, (forall x, In x xs -> k <> fst x) -> assoc_str k (fold_left upd xs l) = assoc_str k l.
Proof.
  induction xs as [|x xs IH]; intros l H; [reflexivity|]. cbn [fold_left]. rewrite IH by (intros y Y; apply H; right; exact Y).
  apply assoc_upd_other, H. left. reflexivity.
Qed.

Lemma in_attr_of k v x : In x (attr_of k v) -> fst x = S_ k.
Proof. unfold attr_of. destruct v; [intros []|]. intros [<- | []]. reflexivity. Qed.

Lemma stylistic_keys l x : In x (stylistic l) -> In (fst x) [S_ "place"; S_ "visible"; S_ "color"].
Proof.
  unfold stylistic. rewrite !in_app_iff. intros [H | [H | H]].
  - apply in_attr_of in H. rewrite H. left. reflexivity.
  - destruct (k_hide l); [destruct H as [<- | []]|destruct H]. right. left. reflexivity.
  - apply in_attr_of in H. rewrite H. right. right. left. reflexivity.
Qed.

Lemma assoc_stylistic_other k l : ~ In k [S_ "place"; S_ "visible"; S_ "color"] -> assoc_str k (stylistic l) = None.
Proof.
  intros N. pose proof (stylistic_keys l) as H. induction (stylistic l) as [|[k' v] s IH]; [reflexivity|].
  cbn [assoc_str]. destruct (str_eqb k k') eqn:E.
  - apply str_eqb_eq in E. subst k'. destruct N. apply (H (k, v)). left. reflexivity.
  - apply IH. intros x X. apply H. right. exact X.
Qed.

Lemma assoc_stylistic_place l : assoc_str (S_ "place") (stylistic l) = match placementToMei l with [] => None | p => Some p end.
Proof. unfold stylistic, attr_of. destruct (placementToMei l); [|reflexivity]. destruct (k_hide l), (k_color l); reflexivity. Qed.

Ltac notin := let H := fresh in cbn [In]; intros H; repeat (destruct H as [H|H]; [vm_compute in H; discriminate H|]); exact H.

(** ** What is read off the written elements *)

Definition shown (x : option accid) : str := match x with Some x => if a_shown x then accidToMei (a_name x) else [] | None => [] end.
Definition upper_of (up : option bool) (x : option accid) : str := match up with Some true => shown x | _ => [] end.
Definition lower_of (up : option bool) (x : option accid) : str := match up with Some true => [] | _ => shown x end.
Definition form_of (up : option bool) : str := match up with Some true => S_ "upper" | Some false => S_ "lower" | None => [] end.
Definition place_of (k : look) (dflt : str) : str := match placementToMei k with [] => dflt | p => p end.

Ltac ga1 :=
  match goal with
  | |- context[@assoc_str ?V (S_ ?a) []] => change (@assoc_str V (S_ a) []) with (@None V)
  | |- context[@assoc_str ?V (S_ ?a) ((S_ ?b, ?v) :: ?l)] =>
      let c := eval vm_compute in (str_eqb (S_ a) (S_ b)) in
      match c with
      | true => change (@assoc_str V (S_ a) ((S_ b, v) :: l)) with (Some v)
      | false => change (@assoc_str V (S_ a) ((S_ b, v) :: l)) with (@assoc_str V (S_ a) l)
      end
  | _ => rewrite assoc_app
  | _ => rewrite assoc_stylistic_place
  | _ => rewrite assoc_stylistic_other by notin
  end.
Ltac ga := repeat (ga1; cbv beta iota).
Ltac start := cbn [removeOctothorpe]; reflexivity.

(** What is read off the attributes in front. *)
Lemma assoc_post a staff id last l : S_ a <> S_ "staff" -> S_ a <> S_ "startid" -> S_ a <> S_ "endid" ->
  assoc_str (S_ a) (post_staves staff id last ++ l) = assoc_str (S_ a) l.
Proof.
  intros A B C. apply str_eqb_neq in A, B, C. unfold post_staves. cbn [app assoc_str]. rewrite A, B.
  destruct last as [x|]; [|reflexivity]. destruct (str_eqb x id); [reflexivity|]. cbn [app assoc_str]. rewrite C. reflexivity.
Qed.
Ltac differs := let H := fresh in intros H; vm_compute in H; discriminate H.

Lemma get_trill staff id last up a k e : e = trillToMei staff id last up a k ->
  is_tag "trill" e = true /\ start_of e = id /\ get e "accidupper" [] = upper_of up a /\ get e "accidlower" [] = lower_of up a
  /\ (forall d, get e "place" d = place_of k d).
Proof.
  intros ->. unfold trillToMei, trill_attrs, start_of, get, place_of. cbn [e_attrs].
  split; [reflexivity|]. split; [reflexivity|].
  split; [|split; [|intros d]]; rewrite assoc_post by differs; unfold side_attr, form_attr, accid_attr, upper_of, lower_of, shown.
  1,2: destruct up as [[|]|], a as [[n [|]]|]; cbn [a_shown a_name]; ga; reflexivity.
  destruct up as [[|]|], a as [[n [|]]|]; cbn [a_shown a_name]; ga; destruct (placementToMei k); reflexivity.
Qed.

Lemma assoc_filter_same {V} k (l : list (str * V)) : assoc_str k (filter (fun y => negb (str_eqb (fst y) k)) l) = None.
Proof.
  induction l as [|[k' v] l IH]; [reflexivity|]. cbn [filter fst]. destruct (str_eqb k' k) eqn:E; cbn [negb]; [exact IH|].
  cbn [assoc_str]. rewrite str_eqb_sym, E. exact IH.
Qed.

Lemma assoc_upds_place xk l :
  assoc_str (S_ "place") (fold_left upd (stylistic xk) l) = match placementToMei xk with [] => assoc_str (S_ "place") l | p => Some p end.
Proof.
  unfold stylistic. rewrite fold_left_app. rewrite assoc_upds_other.
  - unfold attr_of. destruct (placementToMei xk) as [|c p]; [reflexivity|]. cbn [fold_left]. unfold upd.
    rewrite assoc_app. cbn [fst]. rewrite assoc_filter_same. reflexivity.
  - intros x. rewrite in_app_iff. intros [H | H].
    + destruct (k_hide xk); [|destruct H]. destruct H as [<- | []]. differs.
    + apply in_attr_of in H. rewrite H. differs.
Qed.

Definition mergedTrill (staff id last : str) up a k xk : elt :=
  Elt (S_ "trill") (fold_left upd (stylistic xk) (post_staves staff id (Some last) ++ trill_attrs up a k)).

Lemma get_merged staff id last up a k xk b d : ~ In (S_ b) [S_ "place"; S_ "visible"; S_ "color"] ->
  get (mergedTrill staff id last up a k xk) b d = get (trillToMei staff id (Some last) up a k) b d.
Proof.
  intros N. unfold get, mergedTrill, trillToMei. cbn [e_attrs]. rewrite assoc_upds_other; [reflexivity|].
  intros x X E. apply N. rewrite E. apply stylistic_keys in X. exact X.
Qed.

Lemma get_trill_merged staff id last up a k xk e : e = mergedTrill staff id last up a k xk ->
  is_tag "trill" e = true /\ start_of e = id /\ get e "accidupper" [] = upper_of up a /\ get e "accidlower" [] = lower_of up a
  /\ (forall d, get e "place" d = place_of xk (place_of k d)).
Proof.
  intros ->. destruct (get_trill staff id (Some last) up a k _ eq_refl) as (_ & A & B & C & D).
  split; [reflexivity|]. unfold start_of. rewrite !get_merged by notin. do 3 (split; [assumption|]).
  intros d. rewrite <- D. unfold get, mergedTrill, place_of. cbn [e_attrs]. rewrite assoc_upds_place.
  destruct (placementToMei xk); reflexivity.
Qed.

Lemma end_of_trill staff id last up a k :
  end_of (trillToMei staff id last up a k) = match last with Some l => if str_eqb l id then [] else l | None => [] end.
Proof.
  unfold end_of, get, trillToMei, post_staves. cbn [e_attrs].
  destruct last as [l|]; [destruct (str_eqb l id)|]; cbn [app]; ga; try reflexivity;
    unfold trill_attrs, side_attr, form_attr, accid_attr; destruct up as [[|]|], a as [[n [|]]|]; cbn [a_shown a_name]; ga; reflexivity.
Qed.
Lemma end_of_merged staff id last up a k xk : end_of (mergedTrill staff id last up a k xk) = if str_eqb last id then [] else last.
Proof. unfold end_of. rewrite get_merged by notin. apply (end_of_trill staff id (Some last) up a k). Qed.

Lemma get_mordent staff id up a k e : e = mordentToMei staff id up a k ->
  is_tag "mordent" e = true /\ start_of e = id /\ get e "accidupper" [] = upper_of up a /\ get e "accidlower" [] = lower_of up a
  /\ get e "form" [] = form_of up /\ (forall d, get e "place" d = place_of k d).
Proof.
  intros ->. unfold mordentToMei, start_of, get, place_of. cbn [e_attrs].
  split; [reflexivity|]. split; [reflexivity|].
  split; [|split; [|split; [|intros d]]]; rewrite assoc_post by differs; unfold side_attr, form_attr, accid_attr, upper_of, lower_of, form_of, shown.
  1,2,3: destruct up as [[|]|], a as [[n [|]]|]; cbn [a_shown a_name]; ga; reflexivity.
  destruct up as [[|]|], a as [[n [|]]|]; cbn [a_shown a_name]; ga; destruct (placementToMei k); reflexivity.
Qed.

Definition delayed_of (d : delay) : str := match d with NoDelay => [] | _ => S_ "true" end.
Lemma get_turn staff id inv u l dl k e : e = turnToMei staff id inv u l dl k ->
  is_tag "turn" e = true /\ start_of e = id /\ get e "accidupper" [] = shown u /\ get e "accidlower" [] = shown l
  /\ get e "form" [] = (if inv then S_ "lower" else S_ "upper") /\ get e "type" [] = [] /\ get e "delayed" [] = delayed_of dl
  /\ (forall d, get e "place" d = place_of k d).
Proof.
  intros ->. unfold turnToMei, start_of, get, place_of. cbn [e_attrs].
  split; [reflexivity|]. split; [reflexivity|].
  do 5 (split; [rewrite assoc_post by differs; unfold accid_attr, delayed_of, shown;
    destruct u as [[n [|]]|], l as [[n' [|]]|], dl; cbn [a_shown a_name]; ga; reflexivity|]).
  intros d. rewrite assoc_post by differs; unfold accid_attr.
  destruct u as [[n [|]]|], l as [[n' [|]]|], dl; cbn [a_shown a_name]; ga; destruct (placementToMei k); reflexivity.
Qed.

Definition inv_of (inv : bool) : str := if inv then S_ "inv" else [].
Definition shape_of (s : fshape) : str := match s with SquareShape => S_ "square" | Angled => S_ "angular" | _ => [] end.
Lemma get_fermata staff id inv s k e : e = fermataToMei staff id inv s k ->
  is_tag "fermata" e = true /\ start_of e = id /\ get e "form" [] = inv_of inv /\ get e "shape" [] = shape_of s
  /\ (forall d, get e "place" d = place_of k d).
Proof.
  intros ->. unfold fermataToMei, fermata_attrs, start_of, get, place_of. cbn [e_attrs].
  split; [reflexivity|]. split; [reflexivity|].
  split; [|split; [|intros d]]; rewrite assoc_post by differs; destruct inv, s; cbn [inv_of shape_of]; ga; try reflexivity;
    destruct (placementToMei k); reflexivity.
Qed.

(** ** What the passes leave for a note *)

Definition at_note (i : str) (e : elt) : bool := str_eqb (start_of e) i.

Section Pass.
  Variable pp : attrs -> elt -> attrs.
  Variable names : list str.
  Hypothesis pp_local : forall m e j b, j <> start_of e -> pp m e j b = m j b.
  Hypothesis pp_names : forall m e j b, ~ In b names -> pp m e j b = m j b.
  Hypothesis pp_ext : forall m m' e j, (forall b, m j b = m' j b) -> forall b, pp m e j b = pp m' e j b.

  Lemma fold_ext es : forall m m' j, (forall b, m j b = m' j b) -> forall b, fold_left pp es m j b = fold_left pp es m' j b.
  Proof. induction es as [|e es IH]; intros m m' j H b; [apply H|]. cbn [fold_left]. apply IH. intros b'. apply pp_ext, H. Qed.

  Lemma fold_local es : forall m i b, fold_left pp es m i b = fold_left pp (filter (at_note i) es) m i b.
  Proof.
    induction es as [|e es IH]; intros m i b; [reflexivity|]. cbn [fold_left filter]. destruct (at_note i e) eqn:E.
    - cbn [fold_left]. apply IH.
    - rewrite <- IH. apply fold_ext. intros b'. apply pp_local. intros ->. unfold at_note in E. rewrite str_eqb_refl in E. discriminate.
  Qed.

  Lemma fold_names es : forall m i b, ~ In b names -> fold_left pp es m i b = m i b.
  Proof. induction es as [|e es IH]; intros m i b N; [reflexivity|]. cbn [fold_left]. rewrite IH by exact N. apply pp_names, N. Qed.
End Pass.

Lemma setIf_other m i a v j b : j <> i \/ b <> S_ a -> setIf m i a v j b = m j b.
Proof. intros H. unfold setIf. destruct v; [reflexivity|]. apply setAttr_other, H. Qed.
Lemma setIf_same m i a v : setIf m i a v i (S_ a) = match v with [] => m i (S_ a) | _ => Some v end.
Proof. unfold setIf. destruct v; [reflexivity|]. apply setAttr_same. Qed.
Lemma setAttr_ext m m' i a v j : (forall b, m j b = m' j b) -> forall b, setAttr m i a v j b = setAttr m' i a v j b.
Proof. intros H b. unfold setAttr. destruct (_ && _); [reflexivity|apply H]. Qed.
Lemma setIf_ext m m' i a v j : (forall b, m j b = m' j b) -> forall b, setIf m i a v j b = setIf m' i a v j b.
Proof. intros H b. unfold setIf. destruct v; [apply H|apply setAttr_ext, H]. Qed.

Definition fermata_names := [S_ "fermata"; S_ "fermata_form"; S_ "fermata_shape"].
Definition trill_names := [S_ "m21Trill"; S_ "m21TrillAccidUpper"; S_ "m21TrillAccidLower"].
Definition line_names := [S_ "m21TrillExtensionStart"; S_ "m21TrillExtensionEnd"].
Definition mordent_names := [S_ "m21Mordent"; S_ "m21MordentForm"; S_ "m21MordentAccidUpper"; S_ "m21MordentAccidLower"].
Definition turn_names := [S_ "m21Turn"; S_ "m21TurnForm"; S_ "m21TurnType"; S_ "m21TurnAccidUpper"; S_ "m21TurnAccidLower"; S_ "m21TurnDelayed"].

Ltac notname N := let H := fresh in intros H; apply N; rewrite H; repeat (first [left; reflexivity | right]).
Ltac pass_local := let N := fresh in intros m e j b N; match goal with |- ?p m e j b = _ => unfold p end; destruct (start_of e); [reflexivity|];
  rewrite ?setIf_other, ?setAttr_other by (left; exact N); reflexivity.
Ltac pass_names := let N := fresh "N" in intros m e j b N; match goal with |- ?p m e j b = _ => unfold p end; destruct (start_of e); [reflexivity|];
  repeat (rewrite setIf_other by (right; notname N)); rewrite setAttr_other by (right; notname N); reflexivity.
Ltac pass_ext := let H := fresh in intros m m' e j H b; match goal with |- ?p m e j b = _ => unfold p end; destruct (start_of e); [apply H|];
  revert b; repeat apply setIf_ext; apply setAttr_ext, H.

Lemma fermata_local : forall m e j b, j <> start_of e -> ppFermata m e j b = m j b. Proof. pass_local. Qed.
Lemma fermata_named : forall m e j b, ~ In b fermata_names -> ppFermata m e j b = m j b. Proof. pass_names. Qed.
Lemma fermata_ext : forall m m' e j, (forall b, m j b = m' j b) -> forall b, ppFermata m e j b = ppFermata m' e j b. Proof. pass_ext. Qed.
Lemma trill_local : forall m e j b, j <> start_of e -> ppTrill m e j b = m j b. Proof. pass_local. Qed.
Lemma trill_named : forall m e j b, ~ In b trill_names -> ppTrill m e j b = m j b. Proof. pass_names. Qed.
Lemma trill_ext : forall m m' e j, (forall b, m j b = m' j b) -> forall b, ppTrill m e j b = ppTrill m' e j b. Proof. pass_ext. Qed.
Lemma mordent_local : forall m e j b, j <> start_of e -> ppMordent m e j b = m j b. Proof. pass_local. Qed.
Lemma mordent_named : forall m e j b, ~ In b mordent_names -> ppMordent m e j b = m j b. Proof. pass_names. Qed.
Lemma mordent_ext : forall m m' e j, (forall b, m j b = m' j b) -> forall b, ppMordent m e j b = ppMordent m' e j b. Proof. pass_ext. Qed.
Lemma turn_local : forall m e j b, j <> start_of e -> ppTurn m e j b = m j b. Proof. pass_local. Qed.
Lemma turn_named : forall m e j b, ~ In b turn_names -> ppTurn m e j b = m j b. Proof. pass_names. Qed.
Lemma turn_ext : forall m m' e j, (forall b, m j b = m' j b) -> forall b, ppTurn m e j b = ppTurn m' e j b. Proof. pass_ext. Qed.

Lemma lines_named : forall es k m j b, ~ In b line_names -> ppLines k es m j b = m j b.
Proof.
  induction es as [|e es IH]; intros k m j b N; [reflexivity|]. cbn [ppLines]. destruct (has_line e); [|apply IH, N].
  rewrite IH by exact N. rewrite setAttr_other by (right; notname N). destruct (start_of e); [reflexivity|].
  apply setAttr_other. right. notname N.
Qed.

Ltac outside := let H := fresh in intros H; vm_compute in H; repeat (destruct H as [H|H]; [discriminate H|]); exact H.

Definition own_elts (t : string) (i : str) (es : list elt) : list elt := filter (at_note i) (filter (is_tag t) es).

(** Each kind of attribute comes from its own pass alone. *)
Definition m1 (es : list elt) := fold_left ppFermata (filter (is_tag "fermata") es) noAttrs.
Definition m2 es := fold_left ppTrill (filter (is_tag "trill") es) (m1 es).
Definition m3 es := ppLines 0 (filter (is_tag "trill") es) (m2 es).
Definition m4 es := fold_left ppMordent (filter (is_tag "mordent") es) (m3 es).

Lemma m1_other es i b : ~ In b fermata_names -> m1 es i b = None.
Proof. intros N. unfold m1. rewrite (fold_names _ _ fermata_named) by exact N. reflexivity. Qed.
Lemma m2_other es i b : ~ In b (trill_names ++ fermata_names) -> m2 es i b = None.
Proof.
  intros N. unfold m2. rewrite (fold_names _ _ trill_named) by (intros H; apply N, in_app_iff; left; exact H).
  apply m1_other. intros H. apply N, in_app_iff. right. exact H.
Qed.
Lemma m3_other es i b : ~ In b (line_names ++ trill_names ++ fermata_names) -> m3 es i b = None.
Proof.
  intros N. unfold m3. rewrite lines_named by (intros H; apply N, in_app_iff; left; exact H).
  apply m2_other. intros H. apply N, in_app_iff. right. exact H.
Qed.
Lemma m4_other es i b : ~ In b (mordent_names ++ line_names ++ trill_names ++ fermata_names) -> m4 es i b = None.
Proof.
  intros N. unfold m4. rewrite (fold_names _ _ mordent_named) by (intros H; apply N, in_app_iff; left; exact H).
  apply m3_other. intros H. apply N, in_app_iff. right. exact H.
Qed.

Lemma pre_fermata es i b : In b fermata_names -> preprocess es i b = fold_left ppFermata (own_elts "fermata" i es) noAttrs i b.
Proof.
  intros I. unfold preprocess, own_elts. cbn zeta. fold (m1 es). fold (m2 es). fold (m3 es). fold (m4 es).
  rewrite (fold_names _ _ turn_named), <- (fold_local _ fermata_local fermata_ext).
  - unfold m4. rewrite (fold_names _ _ mordent_named).
    + unfold m3. rewrite lines_named; [unfold m2; rewrite (fold_names _ _ trill_named); [reflexivity|]|];
        destruct I as [<- | [<- | [<- | []]]]; outside.
    + destruct I as [<- | [<- | [<- | []]]]; outside.
  - destruct I as [<- | [<- | [<- | []]]]; outside.
Qed.
Lemma pre_trill es i b : In b trill_names -> preprocess es i b = fold_left ppTrill (own_elts "trill" i es) (m1 es) i b.
Proof.
  intros I. unfold preprocess, own_elts. cbn zeta. fold (m1 es). fold (m2 es). fold (m3 es). fold (m4 es).
  rewrite (fold_names _ _ turn_named), <- (fold_local _ trill_local trill_ext).
  - unfold m4. rewrite (fold_names _ _ mordent_named).
    + unfold m3. rewrite lines_named; [reflexivity|]; destruct I as [<- | [<- | [<- | []]]]; outside.
    + destruct I as [<- | [<- | [<- | []]]]; outside.
  - destruct I as [<- | [<- | [<- | []]]]; outside.
Qed.
Lemma pre_lines es i b : In b line_names -> preprocess es i b = ppLines 0 (filter (is_tag "trill") es) (m2 es) i b.
Proof.
  intros I. unfold preprocess, own_elts. cbn zeta. fold (m1 es). fold (m2 es). fold (m3 es). fold (m4 es).
  rewrite (fold_names _ _ turn_named).
  - unfold m4. rewrite (fold_names _ _ mordent_named); [reflexivity|]. destruct I as [<- | [<- | []]]; outside.
  - destruct I as [<- | [<- | []]]; outside.
Qed.
Lemma pre_mordent es i b : In b mordent_names -> preprocess es i b = fold_left ppMordent (own_elts "mordent" i es) (m3 es) i b.
Proof.
  intros I. unfold preprocess, own_elts. cbn zeta. fold (m1 es). fold (m2 es). fold (m3 es). fold (m4 es).
  rewrite (fold_names _ _ turn_named), <- (fold_local _ mordent_local mordent_ext); [reflexivity|].
  destruct I as [<- | [<- | [<- | [<- | []]]]]; outside.
Qed.
Lemma pre_turn es i b : In b turn_names -> preprocess es i b = fold_left ppTurn (own_elts "turn" i es) (m4 es) i b.
Proof.
  intros I. unfold preprocess, own_elts. cbn zeta. fold (m1 es). fold (m2 es). fold (m3 es). fold (m4 es).
  rewrite <- (fold_local _ turn_local turn_ext). reflexivity.
Qed.

Lemma after_own m i b : after m no_attrs i b = m i b.
Proof. unfold after, conclude, no_attrs. destruct (m i b); reflexivity. Qed.

Ltac inn := repeat (first [left; reflexivity | right]).
Ltac one_elt e E := let Z := fresh in
  assert (Z : start_of e <> []) by (intros Z; unfold at_note in E; congruence).

Lemma own_start t i es e l : own_elts t i es = e :: l -> start_of e = i.
Proof.
  intros H. assert (I : In e (own_elts t i es)) by (rewrite H; left; reflexivity). unfold own_elts in I. apply filter_In in I as [_ A].
  apply str_eqb_eq, A.
Qed.

Ltac others := repeat (first [rewrite setIf_same | rewrite setAttr_same | rewrite setIf_other by (right; differs) | rewrite setAttr_other by (right; differs)]).

Lemma readFermata_none es i : own_elts "fermata" i es = [] -> readFermata (after (preprocess es) no_attrs i) = None.
Proof. intros H. unfold readFermata. rewrite after_own, pre_fermata, H by inn. reflexivity. Qed.
Lemma readFermata_one es i e : i <> [] -> own_elts "fermata" i es = [e] ->
  readFermata (after (preprocess es) no_attrs i) = Some (makeFermata (get e "place" (S_ "above")) (get e "form" []) (get e "shape" [])).
Proof.
  intros NE H. pose proof (own_start _ _ _ _ _ H) as S. unfold readFermata, val. rewrite !after_own, !pre_fermata, H by inn. cbn [fold_left].
  unfold ppFermata. rewrite S. destruct i as [|c i]; [contradiction|]. others. unfold noAttrs.
  destruct (get e "form" []), (get e "shape" []); reflexivity.
Qed.

Lemma addTrill_none es i : own_elts "trill" i es = [] -> addTrill (after (preprocess es) no_attrs i) = None.
Proof. intros H. unfold addTrill, val. rewrite after_own, pre_trill, H by inn. cbn [fold_left]. rewrite m1_other by outside. reflexivity. Qed.
Lemma addTrill_one es i e : i <> [] -> own_elts "trill" i es = [e] -> get e "place" (S_ "place_unspecified") <> [] ->
  addTrill (after (preprocess es) no_attrs i) =
  Some (MTrill (Some true) (firstAccid (get e "accidupper" []) (get e "accidlower" [])) (place_look (get e "place" (S_ "place_unspecified")))).
Proof.
  intros NE H NP. pose proof (own_start _ _ _ _ _ H) as S. unfold addTrill, val. rewrite !after_own, !pre_trill, H by inn. cbn [fold_left].
  unfold ppTrill. rewrite S. destruct i as [|c i]; [contradiction|]. others. rewrite !m1_other by outside.
  destruct (get e "place" (S_ "place_unspecified")) as [|p q]; [contradiction|].
  destruct (get e "accidupper" []), (get e "accidlower" []); reflexivity.
Qed.

Lemma addMordent_none es i : own_elts "mordent" i es = [] -> addMordent (after (preprocess es) no_attrs i) = Some None.
Proof. intros H. unfold addMordent, val. rewrite after_own, pre_mordent, H by inn. cbn [fold_left]. rewrite m3_other by outside. reflexivity. Qed.
Definition formFrom (u l f : str) : str :=
  match f with [] => match u with [] => S_ "lower" | _ => S_ "upper" end | _ => f end.
Lemma addMordent_one es i e : i <> [] -> own_elts "mordent" i es = [e] -> get e "place" (S_ "place_unspecified") <> [] ->
  (let f := formFrom (get e "accidupper" []) (get e "accidlower" []) (get e "form" []) in f = S_ "upper" \/ f = S_ "lower") ->
  addMordent (after (preprocess es) no_attrs i) =
  Some (Some (MMordent (Some (str_eqb (formFrom (get e "accidupper" []) (get e "accidlower" []) (get e "form" [])) (S_ "upper")))
    (firstAccid (get e "accidupper" []) (get e "accidlower" [])) (place_look (get e "place" (S_ "place_unspecified"))))).
Proof.
  intros NE H NP. pose proof (own_start _ _ _ _ _ H) as S. unfold addMordent, val. rewrite !after_own, !pre_mordent, H by inn. cbn [fold_left].
  unfold ppMordent. rewrite S. destruct i as [|c i]; [contradiction|]. others. rewrite !m3_other by outside.
  destruct (get e "place" (S_ "place_unspecified")) as [|p q]; [contradiction|].
  destruct (get e "accidupper" []) as [|u0 u], (get e "accidlower" []) as [|l0 l], (get e "form" []) as [|f0 f]; cbn [formFrom]; intros F; try reflexivity.
  all: destruct (str_eqb (f0 :: f) (S_ "upper")) eqn:E; [reflexivity|]; destruct F as [F | F]; rewrite F in *; [discriminate E|reflexivity].
Qed.

Lemma addTurn_none es i : own_elts "turn" i es = [] -> addTurn (after (preprocess es) no_attrs i) = None.
Proof. intros H. unfold addTurn, val. rewrite after_own, pre_turn, H by inn. cbn [fold_left]. rewrite m4_other by outside. reflexivity. Qed.
Lemma addTurn_one es i e : i <> [] -> own_elts "turn" i es = [e] -> get e "place" (S_ "place_unspecified") <> [] -> get e "form" [] <> [] ->
  addTurn (after (preprocess es) no_attrs i) =
  Some (MTurn (negb (str_eqb (get e "form" []) (S_ "upper"))) (optAccid (get e "accidupper" [])) (optAccid (get e "accidlower" []))
    (if str_eqb (get e "delayed" []) (S_ "true") then DefaultDelay else NoDelay) (place_look (get e "place" (S_ "place_unspecified")))).
Proof.
  intros NE H NP NF. pose proof (own_start _ _ _ _ _ H) as S. unfold addTurn, val. rewrite !after_own, !pre_turn, H by inn. cbn [fold_left].
  unfold ppTurn. rewrite S. destruct i as [|c i]; [contradiction|]. others. rewrite !m4_other by outside.
  destruct (get e "place" (S_ "place_unspecified")) as [|p q]; [contradiction|].
  destruct (get e "form" []) as [|f0 f]; [contradiction|].
  destruct (get e "accidupper" []), (get e "accidlower" []), (get e "delayed" []); reflexivity.
Qed.

(** ** What the writer writes for a note *)

Definition is_trill (e : mexpr) : bool := match e with MTrill _ _ _ => true | _ => false end.
Definition is_mordent (e : mexpr) : bool := match e with MMordent _ _ _ => true | _ => false end.
Definition is_turn (e : mexpr) : bool := match e with MTurn _ _ _ _ _ => true | _ => false end.
Definition is_fermata (e : mexpr) : bool := match e with MFermata _ _ _ => true | _ => false end.

Definition mordent_elts staff id (e : mexpr) : list elt := match e with MMordent up a l => [mordentToMei staff id up a l] | _ => [] end.
Definition turn_elts staff id (e : mexpr) : list elt := match e with MTurn i u lo d l => [turnToMei staff id i u lo d l] | _ => [] end.
Definition fermata_elts staff id (e : mexpr) : list elt := match e with MFermata i s l => [fermataToMei staff id i s l] | _ => [] end.

Lemma first_trill_none d : forall es k, existsb is_trill es = false -> first_trill d k es = None.
Proof. induction es as [|e es IH]; intros k H; [reflexivity|]. cbn [existsb] in H. apply orb_false_iff in H as [A B]. destruct e; try discriminate A; apply IH, B. Qed.
Lemma first_trill_one d up a l e2 : existsb is_trill e2 = false -> forall e1 k, existsb is_trill e1 = false ->
  first_trill d k (e1 ++ MTrill up a l :: e2) = if mem_nat (k + length e1) d then None else Some (k + length e1, up, a, l).
Proof.
  intros H2. induction e1 as [|e e1 IH]; intros k H.
  - cbn [app first_trill length]. rewrite Nat.add_0_r, first_trill_none by exact H2. reflexivity.
  - cbn [existsb] in H. apply orb_false_iff in H as [A B]. cbn [app length]. rewrite <- plus_n_Sm. destruct e; try discriminate A; cbn [first_trill]; apply IH, B.
Qed.

Lemma write_exts_elts staff n : forall xs k w, exists new, w_elts (write_exts staff n k xs w) = w_elts w ++ new
  /\ Forall (fun e => start_of e = n_id n /\ e_tag e = S_ "trill") new.
Proof.
  induction xs as [|x xs IH]; intros k w; [exists []; split; [symmetry; apply app_nil_r|constructor]|]. cbn [write_exts].
  match goal with |- context[write_exts staff n (S k) xs ?w0] => destruct (IH (S k) w0) as (new & E & F) end. rewrite E.
  destruct (is_first x (n_id n) && _); [|exists new; split; [reflexivity|exact F]].
  destruct (first_trill _ _ _) as [[[[i up] a] l]|]; [|exists new; split; [reflexivity|exact F]].
  cbn [w_elts]. rewrite <- app_assoc. cbn [app]. eexists. split; [reflexivity|]. constructor; [|exact F]. split; [|reflexivity].
  destruct (get_trill_merged staff (n_id n) (last_id x) up a l (x_look x) _ eq_refl) as (_ & S & _). exact S.
Qed.

Lemma write_exts_none staff n : existsb is_trill (n_exprs n) = false -> forall xs k w, write_exts staff n k xs w = w.
Proof.
  intros H. induction xs as [|x xs IH]; intros k w; [reflexivity|]. cbn [write_exts]. rewrite first_trill_none by exact H.
  destruct (_ && _); apply IH.
Qed.

Lemma write_exts_done staff n e1 up a l e2 : n_exprs n = e1 ++ MTrill up a l :: e2 -> existsb is_trill e1 = false -> existsb is_trill e2 = false ->
  forall xs k w, w_trills w = [length e1] -> write_exts staff n k xs w = w.
Proof.
  intros E H1 H2. induction xs as [|x xs IH]; intros k w D; [reflexivity|]. cbn [write_exts]. rewrite E, D, first_trill_one by assumption.
  cbn [Nat.add mem_nat existsb]. rewrite Nat.eqb_refl. cbn [orb]. destruct (_ && _); apply IH, D.
Qed.

Lemma write_exts_one staff n e1 up a l e2 : n_exprs n = e1 ++ MTrill up a l :: e2 -> existsb is_trill e1 = false -> existsb is_trill e2 = false ->
  forall xs k w, w_trills w = [] ->
  (w_elts (write_exts staff n k xs w) = w_elts w /\ w_trills (write_exts staff n k xs w) = []
     /\ w_exts (write_exts staff n k xs w) = w_exts w)
  \/ exists x, In x xs /\ is_first x (n_id n) = true /\ w_trills (write_exts staff n k xs w) = [length e1]
       /\ w_elts (write_exts staff n k xs w) = w_elts w ++ [mergedTrill staff (n_id n) (last_id x) up a l (x_look x)].
Proof.
  intros E H1 H2. induction xs as [|x xs IH]; intros k w D; [left; split; [reflexivity|split; [exact D|reflexivity]]|]. cbn [write_exts].
  destruct (is_first x (n_id n)) eqn:F; cbn [andb]; [destruct (negb _); cbv iota|cbv iota].
  - rewrite D, E, first_trill_one by assumption. cbn [Nat.add mem_nat existsb]. right. exists x.
    rewrite (write_exts_done staff n e1 up a l e2) by (try assumption; reflexivity). cbn [w_trills w_elts].
    split; [left; reflexivity|]. split; [exact F|]. split; reflexivity.
  - destruct (IH (S k) w D) as [C | (y & I & R)]; [left; exact C|]. right. exists y. split; [right; exact I|exact R].
  - destruct (IH (S k) w D) as [C | (y & I & R)]; [left; exact C|]. right. exists y. split; [right; exact I|exact R].
Qed.

Lemma write_exprs_app staff xs id : forall e1 e2 i w,
  write_exprs staff xs id i (e1 ++ e2) w = write_exprs staff xs id (i + length e1) e2 (write_exprs staff xs id i e1 w).
Proof.
  induction e1 as [|e e1 IH]; intros e2 i w; [cbn [app write_exprs length]; rewrite Nat.add_0_r; reflexivity|].
  cbn [app write_exprs length]. rewrite <- plus_n_Sm. apply IH.
Qed.

Lemma tag_neq (a b : string) : S_ a <> S_ b -> forall e, e_tag e = S_ a -> is_tag b e = false.
Proof. intros N e E. unfold is_tag. rewrite E. apply str_eqb_neq, N. Qed.

(** All that is written for an expression list starts at the note; mordents, turns and
    fermatas give one element each. *)
Lemma write_exprs_elts staff xs id : forall es i w, exists new, w_elts (write_exprs staff xs id i es w) = w_elts w ++ new
  /\ Forall (fun e => start_of e = id) new
  /\ filter (is_tag "mordent") new = flat_map (mordent_elts staff id) es
  /\ filter (is_tag "turn") new = flat_map (turn_elts staff id) es
  /\ filter (is_tag "fermata") new = flat_map (fermata_elts staff id) es.
Proof.
  induction es as [|e es IH]; intros i w; [exists []; split; [symmetry; apply app_nil_r|]; repeat split; constructor|]. cbn [write_exprs].
  match goal with |- context[write_exprs staff xs id (S i) es ?w0] => destruct (IH (S i) w0) as (new & E & F & M & T & Fe) end. rewrite E.
  assert (Same : forall x, mordent_elts staff id e = [] -> turn_elts staff id e = [] -> fermata_elts staff id e = [] ->
    start_of x = id -> e_tag x = S_ "trill" ->
    exists new0, (w_elts w ++ [x]) ++ new = w_elts w ++ new0
      /\ Forall (fun e0 => start_of e0 = id) new0
      /\ filter (is_tag "mordent") new0 = flat_map (mordent_elts staff id) (e :: es)
      /\ filter (is_tag "turn") new0 = flat_map (turn_elts staff id) (e :: es)
      /\ filter (is_tag "fermata") new0 = flat_map (fermata_elts staff id) (e :: es)).
  { intros x A B C S Tg. exists (x :: new). rewrite <- app_assoc. split; [reflexivity|]. split; [constructor; assumption|].
    cbn [flat_map filter]. rewrite A, B, C, (tag_neq "trill" "mordent" ltac:(differs) x Tg), (tag_neq "trill" "turn" ltac:(differs) x Tg),
      (tag_neq "trill" "fermata" ltac:(differs) x Tg). cbn [app]. split; [exact M|split; [exact T|exact Fe]]. }
  destruct e as [up a l|up a l|inv u lo d l|inv s l|].
  - destruct (mem_nat i (w_trills w)).
    + exists new. split; [reflexivity|]. split; [exact F|]. cbn [flat_map]. cbn [mordent_elts turn_elts fermata_elts app]. tauto.
    + destruct (find_ext id 0 xs) as [[k x]|]; cbn [w_elts]; apply Same; try reflexivity.
  - cbn [w_elts]. rewrite <- app_assoc. cbn [app]. eexists. split; [reflexivity|]. split; [constructor; [reflexivity|exact F]|].
    cbn [flat_map mordent_elts turn_elts fermata_elts app filter]. cbn - [mordentToMei]. 
    change (is_tag "mordent" (mordentToMei staff id up a l)) with true. change (is_tag "turn" (mordentToMei staff id up a l)) with false.
    change (is_tag "fermata" (mordentToMei staff id up a l)) with false. cbv iota. rewrite M. split; [reflexivity|split; [exact T|exact Fe]].
  - cbn [w_elts]. rewrite <- app_assoc. cbn [app]. eexists. split; [reflexivity|]. split; [constructor; [reflexivity|exact F]|].
    cbn [flat_map mordent_elts turn_elts fermata_elts app filter]. cbn - [turnToMei].
    change (is_tag "mordent" (turnToMei staff id inv u lo d l)) with false. change (is_tag "turn" (turnToMei staff id inv u lo d l)) with true.
    change (is_tag "fermata" (turnToMei staff id inv u lo d l)) with false. cbv iota. rewrite T. split; [exact M|split; [reflexivity|exact Fe]].
  - cbn [w_elts]. rewrite <- app_assoc. cbn [app]. eexists. split; [reflexivity|]. split; [constructor; [reflexivity|exact F]|].
    cbn [flat_map mordent_elts turn_elts fermata_elts app filter]. cbn - [fermataToMei].
    change (is_tag "mordent" (fermataToMei staff id inv s l)) with false. change (is_tag "turn" (fermataToMei staff id inv s l)) with false.
    change (is_tag "fermata" (fermataToMei staff id inv s l)) with true. cbv iota. rewrite Fe. split; [exact M|split; [exact T|reflexivity]].
  - exists new. split; [reflexivity|]. split; [exact F|]. cbn [flat_map mordent_elts turn_elts fermata_elts app]. tauto.
Qed.

Lemma write_exprs_none staff xs id : forall es i w, existsb is_trill es = false -> exists new,
  w_elts (write_exprs staff xs id i es w) = w_elts w ++ new /\ filter (is_tag "trill") new = []
  /\ w_trills (write_exprs staff xs id i es w) = w_trills w /\ w_exts (write_exprs staff xs id i es w) = w_exts w.
Proof.
  induction es as [|e es IH]; intros i w H; [exists []; split; [symmetry; apply app_nil_r|split; [reflexivity|split; reflexivity]]|]. cbn [write_exprs].
  cbn [existsb] in H. apply orb_false_iff in H as [A B].
  match goal with |- context[write_exprs staff xs id (S i) es ?w0] => destruct (IH (S i) w0 B) as (new & E & F & T & X) end. rewrite E, T, X.
  destruct e as [up a l|up a l|inv u lo d l|inv s l|]; try discriminate A; cbn [w_elts w_trills w_exts]; rewrite <- ?app_assoc; cbn [app];
    (eexists; split; [reflexivity|]; split; [|split; reflexivity]); exact F.
Qed.

(** The trill element of a note with one trill: alone, or with its wavy line. *)
Definition trill_elt staff id xs up a l (e : elt) : Prop :=
  (exists last, e = trillToMei staff id last up a l)
  \/ exists x, In x xs /\ is_first x id = true /\ e = mergedTrill staff id (last_id x) up a l (x_look x).

Lemma write_note_elts staff xs w n : exists new, w_elts (write_note staff xs w n) = w_elts w ++ new
  /\ Forall (fun e => start_of e = n_id n) new
  /\ filter (is_tag "mordent") new = flat_map (mordent_elts staff (n_id n)) (n_exprs n)
  /\ filter (is_tag "turn") new = flat_map (turn_elts staff (n_id n)) (n_exprs n)
  /\ filter (is_tag "fermata") new = flat_map (fermata_elts staff (n_id n)) (n_exprs n)
  /\ (existsb is_trill (n_exprs n) = false -> filter (is_tag "trill") new = [])
  /\ (forall e1 up a l e2, n_exprs n = e1 ++ MTrill up a l :: e2 -> existsb is_trill e1 = false -> existsb is_trill e2 = false ->
        exists e, filter (is_tag "trill") new = [e] /\ trill_elt staff (n_id n) xs up a l e).
Proof.
  unfold write_note. set (w0 := W (w_elts w) (w_exts w) []).
  destruct (write_exts_elts staff n xs 0 w0) as (n1 & E1 & F1).
  destruct (write_exprs_elts staff xs (n_id n) (n_exprs n) 0 (write_exts staff n 0 xs w0)) as (n2 & E2 & F2 & M & T & Fe).
  assert (N1 : forall t, S_ "trill" <> S_ t -> filter (is_tag t) n1 = []).
  { intros t N. clear E1. induction n1 as [|x n1 IH]; [reflexivity|]. cbn [filter]. pose proof (Forall_inv F1) as [_ Tg].
    rewrite (tag_neq "trill" t N x Tg). apply IH. exact (Forall_inv_tail F1). }
  exists (n1 ++ n2). rewrite E2, E1. change (w_elts w0) with (w_elts w). split; [symmetry; apply app_assoc|].
  split; [apply Forall_app; split; [eapply Forall_impl; [|exact F1]; intros e [S _]; exact S|exact F2]|].
  rewrite !filter_app, !N1 by differs. split; [exact M|]. split; [exact T|]. split; [exact Fe|]. split.
  - intros H. rewrite write_exts_none in * by exact H. assert (n1 = []) as -> by (apply (app_inv_head (w_elts w0)); rewrite app_nil_r; symmetry; exact E1).
    destruct (write_exprs_none staff xs (n_id n) (n_exprs n) 0 w0 H) as (n2' & E2' & F & _).
    replace n2 with n2' by (apply (app_inv_head (w_elts w0)); congruence). exact F.
  - intros e1 up a l e2 E H1 H2. rewrite E, write_exprs_app in E2. cbn [write_exprs] in E2.
    destruct (write_exprs_none staff xs (n_id n) e1 0 (write_exts staff n 0 xs w0) H1) as (a1 & A1 & B1 & C1 & _).
    set (w1 := write_exts staff n 0 xs w0) in *. set (w2 := write_exprs staff xs (n_id n) 0 e1 w1) in *.
    destruct (write_exts_one staff n e1 up a l e2 E H1 H2 xs 0 w0 eq_refl) as [(P & Q & _) | (x & I & Fi & Q & P)]; fold w1 in P, Q.
    + assert (n1 = []) as -> by (apply (app_inv_head (w_elts w0)); rewrite app_nil_r; congruence).
      rewrite C1, Q in E2. cbn [mem_nat existsb] in E2.
      match type of E2 with context[write_exprs _ _ _ (S _) e2 ?w3] => destruct (write_exprs_none staff xs (n_id n) e2 (S (0 + length e1)) w3 H2) as (a2 & A2 & B2 & _) end.
      rewrite A2 in E2. destruct (find_ext (n_id n) 0 xs) as [[k x]|]; cbn [w_elts] in E2; rewrite A1, <- !app_assoc in E2; apply app_inv_head in E2; subst n2.
      * eexists. split; [cbn [app filter]; rewrite filter_app, B1; cbn [app filter]; rewrite B2; reflexivity|]. left. eexists. reflexivity.
      * eexists. split; [cbn [app filter]; rewrite filter_app, B1; cbn [app filter]; rewrite B2; reflexivity|]. left. eexists. reflexivity.
    + assert (n1 = [mergedTrill staff (n_id n) (last_id x) up a l (x_look x)]) as -> by (apply (app_inv_head (w_elts w0)); congruence).
      rewrite C1, Q in E2. cbn [mem_nat existsb Nat.add] in E2. rewrite Nat.eqb_refl in E2. cbn [orb] in E2.
      destruct (write_exprs_none staff xs (n_id n) e2 (S (length e1)) w2 H2) as (a2 & A2 & B2 & _).
      rewrite A2, A1, <- !app_assoc in E2. apply app_inv_head in E2. subst n2. rewrite filter_app, B1, B2.
      eexists. split; [reflexivity|]. right. exists x. split; [exact I|]. split; [exact Fi|reflexivity].
Qed.

Lemma filter_at_own i new : Forall (fun e => start_of e = i) new -> filter (at_note i) new = new.
Proof. induction 1 as [|e new S _ IH]; [reflexivity|]. cbn [filter]. unfold at_note at 1. rewrite S, str_eqb_refl, IH. reflexivity. Qed.
Lemma filter_at_other i j new : i <> j -> Forall (fun e => start_of e = j) new -> filter (at_note i) new = [].
Proof.
  intros N. induction 1 as [|e new S _ IH]; [reflexivity|]. cbn [filter]. unfold at_note at 1. rewrite S.
  replace (str_eqb j i) with false by (symmetry; apply str_eqb_neq; congruence). exact IH.
Qed.

Lemma write_notes_absent staff xs i : forall ns w, ~ In i (map n_id ns) ->
  filter (at_note i) (w_elts (fold_left (write_note staff xs) ns w)) = filter (at_note i) (w_elts w).
Proof.
  induction ns as [|n ns IH]; intros w N; [reflexivity|]. cbn [fold_left]. rewrite IH by (intros H; apply N; right; exact H).
  destruct (write_note_elts staff xs w n) as (new & E & F & _). rewrite E, filter_app, (filter_at_other i (n_id n) new); [apply app_nil_r| |exact F].
  intros ->. apply N. left. reflexivity.
Qed.

Lemma write_notes_own staff xs n : forall ns w, NoDup (map n_id ns) -> In n ns -> exists w0,
  filter (at_note (n_id n)) (w_elts (fold_left (write_note staff xs) ns w))
  = filter (at_note (n_id n)) (w_elts w) ++ skipn (length (w_elts w0)) (w_elts (write_note staff xs w0 n)).
Proof.
  induction ns as [|n0 ns IH]; intros w D I; [destruct I|]. cbn [map] in D. apply NoDup_cons_iff in D as [ND D]. cbn [fold_left]. destruct I as [-> | I].
  - exists w. rewrite write_notes_absent by exact ND. destruct (write_note_elts staff xs w n) as (new & E & F & _). rewrite E, filter_app, (filter_at_own _ new F).
    rewrite skipn_app, skipn_all, Nat.sub_diag. reflexivity.
  - destruct (IH (write_note staff xs w n0) D I) as (w0 & H). exists w0. rewrite H. f_equal.
    destruct (write_note_elts staff xs w n0) as (new & E & F & _). rewrite E, filter_app, (filter_at_other _ (n_id n0) new); [apply app_nil_r| |exact F].
    intros Q. apply ND. rewrite <- Q. apply in_map, I.
Qed.

Lemma filter_comm {A} (p q : A -> bool) l : filter p (filter q l) = filter q (filter p l).
Proof. induction l as [|x l IH]; [reflexivity|]. cbn [filter]. destruct (p x) eqn:P, (q x) eqn:Q; cbn [filter]; rewrite ?P, ?Q, IH; reflexivity. Qed.

(** The elements of a note of the staff, of each kind. *)
Lemma own_written staff xs ns n : NoDup (map n_id ns) -> In n ns ->
  own_elts "mordent" (n_id n) (write_staff staff xs ns) = flat_map (mordent_elts staff (n_id n)) (n_exprs n)
  /\ own_elts "turn" (n_id n) (write_staff staff xs ns) = flat_map (turn_elts staff (n_id n)) (n_exprs n)
  /\ own_elts "fermata" (n_id n) (write_staff staff xs ns) = flat_map (fermata_elts staff (n_id n)) (n_exprs n)
  /\ (existsb is_trill (n_exprs n) = false -> own_elts "trill" (n_id n) (write_staff staff xs ns) = [])
  /\ (forall e1 up a l e2, n_exprs n = e1 ++ MTrill up a l :: e2 -> existsb is_trill e1 = false -> existsb is_trill e2 = false ->
        exists e, own_elts "trill" (n_id n) (write_staff staff xs ns) = [e] /\ trill_elt staff (n_id n) xs up a l e).
Proof.
  intros D I. unfold own_elts, write_staff. destruct (write_notes_own staff xs n ns (W [] [] []) D I) as (w0 & H).
  rewrite !(filter_comm (at_note (n_id n))), H. cbn [w_elts filter app].
  destruct (write_note_elts staff xs w0 n) as (new & E & F & R). rewrite E, skipn_app, skipn_all, Nat.sub_diag. cbn [app skipn]. exact R.
Qed.
Lemma own_absent staff xs ns i t : ~ In i (map n_id ns) -> own_elts t i (write_staff staff xs ns) = [].
Proof. intros N. unfold own_elts, write_staff. rewrite filter_comm, write_notes_absent by exact N. reflexivity. Qed.
