(** Property theorems C48 (key signatures), C49 and C63 (barlines). *)
From Coq Require Import Lia.
From Verif Require Import PyStr PyStrProofs BarModel BarProofs.

(** C48.  The full statement is [forall k, -14 <= k <= 14 -> the token written for k
    is read as k].  Beyond seven sharps or flats the reader finds nothing. *)
Theorem C48_key_signature_refuted : exists k tok,
  (-14 <= k <= 14)%Z /\ keySigToken k = Some tok /\ m21KeySignature tok = None.
Proof. exists 8%Z, (S_ "*k[f##c#g#d#a#e#b#]"). split; [lia|]. split; reflexivity. Qed.
Print Assumptions C48_key_signature_refuted.

(** C48, part: up to seven sharps or flats. *)
Theorem C48_key_signature_partial : forall k, (-7 <= k <= 7)%Z ->
  exists tok, keySigToken k = Some tok /\ m21KeySignature tok = Some (Sharps k).
Proof.
  intros k H. exists (S_ "*k[" ++ spell (signature_items k) ++ S_ "]"). split.
  - apply written_signature, H.
  - destruct (signature_items_ok k H) as [A B]. apply signature_read; assumption.
Qed.
Print Assumptions C48_key_signature_partial.

(** C48, reading: a signature with k sharps or flats in the usual order is read as
    k wherever, and however many, cancelling naturals are written among them. *)
Theorem C48_cancelling_naturals : forall k (is : list (ascii * accid)), (-7 <= k <= 7)%Z ->
  (forall i, In i is -> In (fst i) ["a"; "b"; "c"; "d"; "e"; "f"; "g"]%char) ->
  filter (fun i => negb (is_natural i)) is = signature_items k ->
  m21KeySignature (S_ "*k[" ++ concat (map (fun i => [fst i; accid_char (snd i)]) is) ++ S_ "]")
    = Some (Sharps k).
Proof.
  intros k is Hk Hl E. apply signature_read; [exact Hk| |exact E].
  rewrite forallb_forall. intros i Hi. specialize (Hl i Hi). unfold item_ok.
  cbn [In] in Hl. repeat destruct Hl as [Hl|Hl]; try contradiction; rewrite <- Hl; reflexivity.
Qed.
Print Assumptions C48_cancelling_naturals.

(** C48, reading: a signature that is not one of the usual ones is never read,
    whatever it holds: letters are made upper case and then compared with lower
    case letters. *)
Theorem C48_unusual_refuted : forall t ps, m21KeySignature t <> Some (Altered ps).
Proof.
  intros t ps. unfold m21KeySignature. set (s := drop_naturals (keySignature t)). clearbody s.
  destruct (lookup_key humdrumStandardKeyStrings s) as [k|] eqn:E; [discriminate|].
  destruct s as [|a s]; [discriminate|].
  assert (U : char_in (to_upper a) (S_ "abcdefg") = false).
  { destruct a as [b0 b1 b2 b3 b4 b5 b6 b7]. destruct b0, b1, b2, b3, b4, b5, b6, b7; reflexivity. }
  destruct s as [|b s]; cbn [pairs_upper forallb]; rewrite U; discriminate.
Qed.
Print Assumptions C48_unusual_refuted.
Example C48_unusual_nonvacuous : m21KeySignature (S_ "*k[b-f#]") = None.
Proof. reflexivity. Qed.

Example C48_nonvacuous :
  (-7 <= 2 <= 7)%Z /\
  filter (fun i => negb (is_natural i))
    [("b", Natural); ("f", Sharp); ("e", Natural); ("c", Sharp)]%char = signature_items 2 /\
  m21KeySignature (S_ "*k[bnf#enc#]") = Some (Sharps 2) /\
  keySigToken (-3) = Some (S_ "*k[b-e-a-]").
Proof. split; [lia|]. repeat split. Qed.

(** C49.  The full statement is that every pair has a combined style.  A dotted
    barline followed by a start repeat has none. *)
Theorem C49_combine_refuted : exists left prev,
  measureStyleFromM21Barline (Some left) <> None /\ measureStyleFromM21Barline (Some prev) <> None /\
  measure_style (Some left) (Some prev) = None.
Proof.
  exists (RepeatStart BFinal), (Bar BDotted).
  split; [discriminate|]. split; [discriminate|]. reflexivity.
Qed.
Print Assumptions C49_combine_refuted.

(** Repeats that can be drawn. *)
Definition drawable (t : btype) : Prop :=
  In t [BRegular; BDashed; BHeavy; BDouble; BFinal; BHeavyLight; BHeavyHeavy].
(** A left barline does not end a repeat, a right one does not start one. *)
Definition good_left (b : option barline) : Prop :=
  match b with Some (RepeatEnd _) => False | Some (RepeatStart t) => drawable t | _ => True end.
Definition good_right (b : option barline) : Prop :=
  match b with Some (RepeatStart _) => False | Some (RepeatEnd t) => drawable t | _ => True end.
Definition starts_repeat (b : option barline) : Prop := exists t, b = Some (RepeatStart t).
Definition ends_repeat (b : option barline) : Prop := exists t, b = Some (RepeatEnd t).
(** The pairs with no combined style: an invisible barline before a start repeat,
    or a short, tick or dotted one before a start repeat that is not heavy. *)
Definition clash (left prev : option barline) : Prop :=
  exists s t, left = Some (RepeatStart s) /\ prev = Some (Bar t) /\
    (t = BNone \/ (In t [BShort; BTick; BDotted] /\ s <> BHeavy)).

Definition isE (b : option barline) : bool := match b with Some (RepeatEnd _) => true | _ => false end.
Definition isS (b : option barline) : bool := match b with Some (RepeatStart _) => true | _ => false end.
Definition clash_b (left prev : option barline) : bool :=
  match left, prev with
  | Some (RepeatStart _), Some (Bar BNone) => true
  | Some (RepeatStart BHeavy), _ => false
  | Some (RepeatStart _), Some (Bar (BShort | BTick | BDotted)) => true
  | _, _ => false
  end.
Definition drawable_b (t : btype) : bool :=
  match t with BShort | BTick | BDotted | BNone => false | _ => true end.
Definition good_left_b (b : option barline) : bool :=
  match b with Some (RepeatEnd _) => false | Some (RepeatStart t) => drawable_b t | _ => true end.
Definition good_right_b (b : option barline) : bool :=
  match b with Some (RepeatStart _) => false | Some (RepeatEnd t) => drawable_b t | _ => true end.

Lemma ends_b b : ends_repeat b <-> isE b = true.
Proof.
  unfold ends_repeat, isE. split; [intros [t ->]; reflexivity|].
  destruct b as [[t|t|t]|]; try discriminate. eauto.
Qed.
Lemma starts_b b : starts_repeat b <-> isS b = true.
Proof.
  unfold starts_repeat, isS. split; [intros [t ->]; reflexivity|].
  destruct b as [[t|t|t]|]; try discriminate. eauto.
Qed.
Lemma clash_iff l r : clash l r <-> clash_b l r = true.
Proof.
  unfold clash. split.
  - intros (u & t & -> & -> & [->|[H N]]); [destruct u; reflexivity|]. cbn [In] in H.
    destruct u; try contradiction; repeat destruct H as [<-|H]; reflexivity || contradiction.
  - destruct l as [[u|u|u]|]; try discriminate.
    destruct r as [[t|t|t]|]; try (destruct u; discriminate).
    intros H. exists u, t. split; [reflexivity|]. split; [reflexivity|].
    destruct t, u; try discriminate; cbn;
      try (left; reflexivity); right; (split; [tauto|discriminate]).
Qed.
Lemma drawable_t t : drawable t -> drawable_b t = true.
Proof. unfold drawable. cbn [In]. intuition (subst; reflexivity). Qed.
Lemma good_left_t b : good_left b -> good_left_b b = true.
Proof. destruct b as [[t|t|t]|]; cbn; try reflexivity; [apply drawable_t|contradiction]. Qed.
Lemma good_right_t b : good_right b -> good_right_b b = true.
Proof. destruct b as [[t|t|t]|]; cbn; try reflexivity; [contradiction|apply drawable_t]. Qed.

(** C49, part: the pairs that fail are exactly those of [clash]; all others have a style, and it starts and
    ends repeats exactly where the barlines do. *)
Theorem C49_combine_partial : forall left prev, good_left left -> good_right prev ->
  (measure_style left prev = None <-> clash left prev) /\
  (forall s, measure_style left prev = Some s ->
     (In (snd s) [RepeatForward; RepeatBoth] <-> starts_repeat left) /\
     (In (snd s) [RepeatBackward; RepeatBoth] <-> ends_repeat prev)).
Proof.
  intros left prev Hl Hr. setoid_rewrite starts_b. rewrite clash_iff. setoid_rewrite ends_b.
  assert (C1 : forall l r (f : fermata), _) by (apply (check_bars (fun left prev _ =>
    negb (good_left_b left) || negb (good_right_b prev) ||
    match measure_style left prev with
    | Some s => negb (clash_b left prev)
        && Bool.eqb (match snd s with RepeatForward | RepeatBoth => true | _ => false end) (isS left)
        && Bool.eqb (match snd s with RepeatBackward | RepeatBoth => true | _ => false end) (isE prev)
    | None => clash_b left prev
    end)); vm_compute; reflexivity).
  specialize (C1 left prev NoFermata). cbv beta in C1.
  rewrite (good_left_t left Hl), (good_right_t prev Hr) in C1. cbn [negb orb] in C1.
  destruct (measure_style left prev) as [s|].
  - apply andb_true_iff in C1 as [C1 C3]. apply andb_true_iff in C1 as [C1 C2].
    apply eqb_prop in C2. apply eqb_prop in C3. rewrite negb_true_iff in C1.
    split.
    + split; [discriminate|]. intros X. rewrite X in C1. discriminate.
    + intros s' E. injection E as <-. rewrite <- C2, <- C3.
      destruct s as [v m]. cbn [snd In]. destruct m; intuition discriminate.
  - split; [tauto|discriminate].
Qed.
Print Assumptions C49_combine_partial.

Example C49_nonvacuous :
  good_left (Some (RepeatStart BHeavyLight)) /\ good_right (Some (RepeatEnd BFinal)) /\
  measure_style (Some (RepeatStart BHeavyLight)) (Some (RepeatEnd BFinal)) = Some (LightHeavyLight, RepeatBoth).
Proof. unfold good_left, good_right, drawable. cbn. intuition. Qed.

(** ** C73 *)

(** The lines a style is drawn with, left to right; [true] is a thick one. *)
Definition drawn (v : vstyle) : list bool :=
  match v with
  | Regular => [false] | Heavy => [true] | Double => [false; false] | HeavyHeavy => [true; true]
  | Final => [false; true] | HeavyLight => [true; false]
  | LightHeavyLight => [false; true; false] | HeavyLightHeavy => [true; false; true]
  | _ => []
  end.
(** One barline against another; where they touch, two equal lines are one. *)
Definition touch (a b : list bool) : list bool :=
  match rev a, b with
  | x :: _, y :: b' => if Bool.eqb x y then a ++ b' else a ++ b
  | _, _ => a ++ b
  end.
Definition plain_shape (t : btype) : Prop := In t [BRegular; BHeavy; BFinal; BHeavyLight].
Definition lines_of (t : btype) : list bool := drawn (measureVisualStyleFromM21BarlineType t).

(** C73.  The full statement is that of [C73_repeat_both_partial] without the exception: a
    heavy end repeat meeting a heavy-light start repeat loses the light line. *)
Theorem C73_repeat_both_refuted : exists e s st, plain_shape e /\ plain_shape s /\ e <> s /\
  measure_style (Some (RepeatStart s)) (Some (RepeatEnd e)) = Some st /\
  drawn (fst st) <> touch (lines_of e) (lines_of s).
Proof.
  exists BHeavy, BHeavyLight, (Heavy, RepeatBoth). unfold plain_shape. cbn [In].
  repeat split; [tauto|tauto|discriminate|discriminate].
Qed.
Print Assumptions C73_repeat_both_refuted.

(** C73, part: an end repeat meeting a start repeat of another shape is drawn as the lines of
    the one and the lines of the other, except in that case; of the same shape, as that. *)
Theorem C73_repeat_both_partial : forall e s, plain_shape e -> plain_shape s ->
  ~ (e = BHeavy /\ s = BHeavyLight) ->
  exists st, measure_style (Some (RepeatStart s)) (Some (RepeatEnd e)) = Some st /\
    snd st = RepeatBoth /\
    drawn (fst st) = if list_eq_dec Bool.bool_dec (lines_of e) (lines_of s) then lines_of e
                     else touch (lines_of e) (lines_of s).
Proof.
  intros e s He Hs N. unfold plain_shape in *. cbn [In] in *.
  repeat match goal with H : _ \/ _ |- _ => destruct H as [<-|H] | H : False |- _ => destruct H end;
    try (exfalso; apply N; split; reflexivity);
    eexists; (split; [reflexivity|]); (split; [reflexivity|]); reflexivity.
Qed.
Print Assumptions C73_repeat_both_partial.

Example C73_nonvacuous : plain_shape BRegular /\ plain_shape BHeavyLight /\
  touch (lines_of BFinal) (lines_of BHeavyLight) = [false; true; false] /\
  touch (lines_of BRegular) (lines_of BHeavyLight) = [false; true; false].
Proof. unfold plain_shape. cbn. tauto. Qed.

(** C63.  The full statement is that the barlines read back are the ones written,
    whatever the measure number.  A dashed barline becomes a regular one. *)
Theorem C63_barlines_refuted : exists num prev r,
  export_import num None (Some prev) NoFermata = Some r /\ fst r <> prev.
Proof. exists (S_ "12"), (Bar BDashed), (Bar BRegular, None). split; [reflexivity|discriminate]. Qed.
Print Assumptions C63_barlines_refuted.

Definition with_symbol (t : btype) : Prop :=
  In t [BRegular; BHeavy; BDouble; BFinal; BHeavyLight; BHeavyHeavy].
Definition matched (e s : btype) : Prop :=
  (e = s /\ with_symbol e) \/ (e = BFinal /\ s = BHeavyLight) \/ (e = BHeavyLight /\ s = BFinal).

(** C63, part: for every measure number (digits and letters, or none) and every
    fermata, a single barline of any type but dashed, an end repeat, a start
    repeat, and an end repeat meeting a start repeat of the same or the opposite
    shape, are all read back as they were.  Missing: barlines of two different
    shapes on the two sides of one barline token. *)
Theorem C63_barlines_partial : forall num f, Forall (fun c => alnum c = true) num ->
  (forall t, t <> BDashed -> export_import num None (Some (Bar t)) f = Some (Bar t, None)) /\
  (forall t, with_symbol t ->
     export_import num None (Some (RepeatEnd t)) f = Some (RepeatEnd t, None)) /\
  (forall t, with_symbol t ->
     export_import num (Some (RepeatStart t)) None f = Some (Bar BRegular, Some (RepeatStart t))) /\
  (forall e s, matched e s ->
     export_import num (Some (RepeatStart s)) (Some (RepeatEnd e)) f
       = Some (RepeatEnd e, Some (RepeatStart s))).
Proof.
  intros num f H0.
  assert (H : forallb alnum num = true) by (rewrite forallb_forall; rewrite Forall_forall in H0; exact H0).
  clear H0.
  repeat apply conj.
  - intros t Ht. rewrite export_import_num by exact H. destruct t; try contradiction; destruct f; reflexivity.
  - intros t Ht. rewrite export_import_num by exact H. unfold with_symbol in Ht. cbn [In] in Ht.
    repeat match goal with H : _ \/ _ |- _ => destruct H as [<-|H] | H : False |- _ => destruct H end;
      destruct f; reflexivity.
  - intros t Ht. rewrite export_import_num by exact H. unfold with_symbol in Ht. cbn [In] in Ht.
    repeat match goal with H : _ \/ _ |- _ => destruct H as [<-|H] | H : False |- _ => destruct H end;
      destruct f; reflexivity.
  - intros e s Hm. rewrite export_import_num by exact H. unfold matched, with_symbol in Hm. cbn [In] in Hm.
    destruct Hm as [[<- Ht]|[[-> ->]|[-> ->]]]; [|destruct f; reflexivity..].
    repeat match goal with H : _ \/ _ |- _ => destruct H as [<-|H] | H : False |- _ => destruct H end;
      destruct f; reflexivity.
Qed.
Print Assumptions C63_barlines_partial.

(** C63, repeats: whatever the two barlines, an exported barline never loses or
    invents a repeat. *)
Theorem C63_repeats_kept : forall num left prev f r l, Forall (fun c => alnum c = true) num ->
  good_left left -> good_right prev ->
  export_import num left prev f = Some (r, l) ->
  (ends_repeat (Some r) <-> ends_repeat prev) /\ (starts_repeat l <-> starts_repeat left).
Proof.
  intros num left prev f r l H Hl Hr E.
  assert (H' : forallb alnum num = true)
    by (rewrite forallb_forall; rewrite Forall_forall in H; exact H).
  rewrite export_import_num in E by exact H'. clear H H' num.
  rewrite !ends_b, !starts_b.
  pose proof (check_bars (fun left prev f =>
    isE left || isS prev ||
    match export_import [] left prev f with
    | Some (r, l) => Bool.eqb (isE (Some r)) (isE prev) && Bool.eqb (isS l) (isS left)
    | None => true
    end)) as C.
  assert (C1 : forall l r f, _) by (apply C; vm_compute; reflexivity).
  specialize (C1 left prev f). cbv beta in C1. rewrite E in C1.
  assert (N1 : isE left = false) by (clear - Hl; destruct left as [[t|t|t]|]; cbn in *; reflexivity || contradiction).
  assert (N2 : isS prev = false) by (clear - Hr; destruct prev as [[t|t|t]|]; cbn in *; reflexivity || contradiction).
  rewrite N1, N2 in C1. cbn [orb] in C1. apply andb_true_iff in C1 as [A B].
  apply eqb_prop in A. apply eqb_prop in B. rewrite A, B. tauto.
Qed.
Print Assumptions C63_repeats_kept.

Example C63_nonvacuous :
  Forall (fun c => alnum c = true) (S_ "23b") /\
  createBarToken (S_ "23b") (LightHeavyLight, RepeatBoth) FermataBelow = Some (S_ "=23b:|!|:;<") /\
  export_import (S_ "23b") (Some (RepeatStart BHeavyLight)) (Some (RepeatEnd BFinal)) FermataBelow
    = Some (RepeatEnd BFinal, Some (RepeatStart BHeavyLight)) /\
  export_import (S_ "7") None (Some (Bar BFinal)) Fermata = Some (Bar BFinal, None) /\
  matched BFinal BHeavyLight.
Proof.
  split; [repeat constructor|]. split; [reflexivity|]. split; [reflexivity|]. split; [reflexivity|].
  right; left; split; reflexivity.
Qed.
