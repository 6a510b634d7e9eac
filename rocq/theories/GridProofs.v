(** Lemmas about the lines of the exported file. *)
From Coq Require Import Lia.
From Verif Require Import PyStr PyStrProofs RecipModel GridModel.
From Verif Require MeasureModel.
Local Close Scope Q_scope.

(** ** Lists *)

Lemma indexed_map {A} (d : A) l : indexed l = map (fun i => (i, nth i l d)) (seq 0 (length l)).
Proof.
  unfold indexed. assert (G : forall k (r : list A), combine (seq k (length r)) r = map (fun i => (i, nth (i - k) r d)) (seq k (length r))).
  { intros k r. revert k. induction r as [|x r IH]; intros k; [reflexivity|]. cbn [length seq combine map]. rewrite Nat.sub_diag. f_equal.
    rewrite IH. apply map_ext_in. intros i I. apply in_seq in I. f_equal. replace (i - k) with (S (i - S k)) by lia. reflexivity. }
  rewrite G. apply map_ext. intros i. rewrite Nat.sub_0_r. reflexivity.
Qed.
Lemma flat_map_map {A B C} (f : B -> list C) (g : A -> B) l : flat_map f (map g l) = flat_map (fun x => f (g x)) l.
Proof. induction l; cbn; [reflexivity|]. rewrite IHl. reflexivity. Qed.
Lemma map_flat_map {A B C} (f : B -> C) (g : A -> list B) l : map f (flat_map g l) = flat_map (fun x => map f (g x)) l.
Proof. induction l; cbn; [reflexivity|]. rewrite map_app, IHl. reflexivity. Qed.
Lemma flat_map_ext_in {A B} (f g : A -> list B) l : (forall x, In x l -> f x = g x) -> flat_map f l = flat_map g l.
Proof. induction l as [|x l IH]; intros H; [reflexivity|]. cbn. rewrite (H x (or_introl eq_refl)), IH; [reflexivity|]. intros y I. apply H. right. exact I. Qed.
Lemma filter_flat_map {A B} (f : B -> bool) (g : A -> list B) l : filter f (flat_map g l) = flat_map (fun x => filter f (g x)) l.
Proof. induction l; cbn; [reflexivity|]. rewrite filter_app, IHl. reflexivity. Qed.
Lemma filter_all {A} (f : A -> bool) l : (forall x, In x l -> f x = true) -> filter f l = l.
Proof. induction l as [|x l IH]; intros H; [reflexivity|]. cbn. rewrite (H x (or_introl eq_refl)). f_equal. apply IH. intros y I. apply H. right. exact I. Qed.
Lemma filter_nothing {A} (f : A -> bool) l : (forall x, In x l -> f x = false) -> filter f l = [].
Proof. induction l as [|x l IH]; intros H; [reflexivity|]. cbn. rewrite (H x (or_introl eq_refl)). apply IH. intros y I. apply H. right. exact I. Qed.

(** [n - 1 .. 0] *)
Definition down (n : nat) : list nat := rev (seq 0 n).
Lemma in_down n i : In i (down n) <-> i < n.
Proof. unfold down. rewrite <- in_rev, in_seq. lia. Qed.
Lemma rev_indexed {A B} (d : A) (f : nat * A -> list B) l :
  flat_map f (rev (indexed l)) = flat_map (fun i => f (i, nth i l d)) (down (length l)).
Proof. rewrite (indexed_map d), <- map_rev, flat_map_map. reflexivity. Qed.

Lemma set_nth_length {A} (x : A) l : forall i, length (set_nth i x l) = length l.
Proof. induction l as [|y l IH]; intros [|i]; cbn; auto. Qed.
Lemma set_nth_same {A} (x d : A) l : forall i, i < length l -> nth i (set_nth i x l) d = x.
Proof. induction l as [|y l IH]; intros [|i] H; cbn in *; [lia|lia|reflexivity|]. apply IH. lia. Qed.
Lemma set_nth_other {A} (x d : A) l : forall i j, i <> j -> nth j (set_nth i x l) d = nth j l d.
Proof. induction l as [|y l IH]; intros [|i] [|j] H; cbn; auto; congruence. Qed.
Lemma nth_error_set {A} (x : A) l : forall i j y, nth_error (set_nth i x l) j = Some y -> (i = j /\ y = x) \/ nth_error l j = Some y.
Proof.
  induction l as [|z l IH]; intros [|i] [|j] y H; cbn in *; auto; try discriminate.
  - injection H as <-. auto.
  - destruct (IH i j y H) as [(-> & ->)|E]; auto.
Qed.
Lemma on_nth_in {A} i (f : A -> A) l j y : nth_error (on_nth i f l) j = Some y ->
  (i = j /\ exists x, nth_error l i = Some x /\ y = f x) \/ nth_error l j = Some y.
Proof.
  unfold on_nth. destruct (nth_error l i) as [x|] eqn:E; [|auto]. intros H. apply nth_error_set in H.
  destruct H as [(-> & ->)|H]; [left; eauto|auto].
Qed.

(** ** Columns *)

(** What a column of the file is for. *)
Inductive column :=
| CRecip
| CVoice (p s v : nat)
| CXmlId (p s : nat)
| CVerse (p s i : nat)
| CDynamics (p : nat)
| CFiguredBass (p : nat)
| CHarmony (p : nat).

Definition is_side (c : column) : bool := match c with CRecip | CVoice _ _ _ => false | _ => true end.

(** The columns of a line with the given numbers of voices, for each part and staff: the last
    part first, in a part the last staff first; a staff has at least one column for voices,
    then come its id, its verses; behind the staves of a part dynamics, figured bass, harmony. *)
Definition staff_columns (g : grid) (p s nv : nat) : list column :=
  map (CVoice p s) (seq 0 (Nat.max 1 nv))
  ++ (if hasXmlIds g p then [CXmlId p s] else []) ++ map (CVerse p s) (seq 0 (verseCount g p s)).
Definition part_columns (g : grid) (p : nat) (vs : list nat) : list column :=
  flat_map (fun s => staff_columns g p s (nth s vs 0)) (down (length vs))
  ++ (if hasDynamics g p then [CDynamics p] else []) ++ (if hasFiguredBass g p then [CFiguredBass p] else [])
  ++ (if hasHarmony g p then [CHarmony p] else []).
Definition columns (g : grid) (shape : list (list nat)) : list column :=
  (if g_recip g then [CRecip] else []) ++ flat_map (fun p => part_columns g p (nth p shape [])) (down (length shape)).

(** The numbers of voices of a slice. *)
Definition shape (sl : slice) : list (list nat) :=
  map (fun pt => map (fun st => length (st_voices st)) (pt_staves pt)) (sl_parts sl).
(** The token that the slice holds for a column. *)
Definition no_staff : staff := mkStaff [] no_side.
Definition no_part : part := mkPart [] no_side.
Definition part_at (sl : slice) (p : nat) : part := nth p (sl_parts sl) no_part.
Definition staff_at (sl : slice) (p s : nat) : staff := nth s (pt_staves (part_at sl p)) no_staff.
Definition content (sl : slice) (c : column) : option str :=
  match c with
  | CRecip => None
  | CVoice p s v => nth v (st_voices (staff_at sl p s)) None
  | CXmlId p s => sd_xmlid (st_side (staff_at sl p s))
  | CVerse p s i => nth i (sd_verses (st_side (staff_at sl p s))) None
  | CDynamics p => sd_dynamics (pt_side (part_at sl p))
  | CFiguredBass p => sd_fb (pt_side (part_at sl p))
  | CHarmony p => sd_harmony (pt_side (part_at sl p))
  end.
(** The grid knows of everything the slice holds. *)
Definition fits (g : grid) (sl : slice) : Prop :=
  forall p, (forall s, length (sd_verses (st_side (staff_at sl p s))) <= verseCount g p s
                       /\ (sd_xmlid (st_side (staff_at sl p s)) <> None -> hasXmlIds g p = true))
    /\ (sd_harmony (pt_side (part_at sl p)) <> None -> hasHarmony g p = true)
    /\ (sd_dynamics (pt_side (part_at sl p)) <> None -> hasDynamics g p = true)
    /\ (sd_fb (pt_side (part_at sl p)) <> None -> hasFiguredBass g p = true).

Lemma map_nth_seq {A B} (f : option A -> B) (l : list (option A)) : map f l = map (fun i => f (nth i l None)) (seq 0 (length l)).
Proof.
  induction l as [|x l IH]; [reflexivity|]. cbn [length seq map nth]. f_equal. rewrite IH, <- seq_shift, map_map. reflexivity.
Qed.
Lemma map_repeat_seq {A} (x : A) (f : nat -> A) n k : (forall i, k <= i < k + n -> f i = x) -> map f (seq k n) = repeat x n.
Proof.
  revert k. induction n as [|n IH]; intros k H; [reflexivity|]. cbn. rewrite (H k) by lia. f_equal. apply IH. intros i I. apply H. lia.
Qed.

Lemma voices_line empty sl p s : voice_tokens empty (staff_at sl p s)
  = map (fun c => or_else empty (content sl c)) (map (CVoice p s) (seq 0 (Nat.max 1 (length (st_voices (staff_at sl p s)))))).
Proof.
  rewrite map_map. cbn [content]. unfold voice_tokens. destruct (st_voices (staff_at sl p s)) as [|v vs]; [reflexivity|].
  rewrite (map_nth_seq (or_else empty) (v :: vs)). reflexivity.
Qed.
Lemma staff_line g empty sl p s : length (sd_verses (st_side (staff_at sl p s))) <= verseCount g p s ->
  staff_tokens g empty true p (s, staff_at sl p s)
  = map (fun c => or_else empty (content sl c)) (staff_columns g p s (length (st_voices (staff_at sl p s)))).
Proof.
  intros F. unfold staff_tokens, staff_columns. cbn [negb andb]. rewrite !map_app, voices_line. f_equal. unfold staff_sides.
  f_equal; [destruct (hasXmlIds g p); reflexivity|]. rewrite map_map. cbn [content].
  set (vs := sd_verses _) in *. replace (verseCount g p s) with (length vs + (verseCount g p s - length vs)) at 2 by lia.
  rewrite seq_app, map_app. f_equal; [apply map_nth_seq|]. symmetry. apply map_repeat_seq. intros i I. rewrite nth_overflow by lia. reflexivity.
Qed.
Lemma part_line g empty sl p : p < length (sl_parts sl) -> fits g sl ->
  part_tokens g empty true (p, part_at sl p)
  = map (fun c => or_else empty (content sl c)) (part_columns g p (nth p (shape sl) [])).
Proof.
  intros L F. destruct (F p) as (FS & FH & _). unfold part_tokens, part_columns. cbn [negb andb].
  assert (SH : nth p (shape sl) [] = map (fun st => length (st_voices st)) (pt_staves (part_at sl p))).
  { unfold shape, part_at. rewrite <- (map_nth (fun pt => map (fun st => length (st_voices st)) (pt_staves pt))). reflexivity. }
  rewrite SH, map_app, map_length. f_equal.
  - rewrite (rev_indexed no_staff), map_flat_map. apply flat_map_ext_in. intros s I.
    fold (staff_at sl p s). rewrite (staff_line g empty sl p s (proj1 (FS s))). f_equal. f_equal.
    change 0 with (length (st_voices no_staff)). rewrite (map_nth (fun st => length (st_voices st))). reflexivity.
  - unfold part_sides. rewrite !map_app. f_equal; [destruct (hasDynamics g p); reflexivity|]. f_equal; [destruct (hasFiguredBass g p); reflexivity|].
    destruct (sd_harmony (pt_side (part_at sl p))) as [h|] eqn:E.
    + rewrite FH by discriminate. cbn [map content]. rewrite E. reflexivity.
    + destruct (hasHarmony g p); [cbn [map content]; rewrite E|]; reflexivity.
Qed.

(** The recip column and the text for empty places of a line. *)
Definition line_texts (g : grid) (sl : slice) : option (str * str) :=
  match filler sl with
  | None => None
  | Some e => if g_recip g then match recip_column sl e with Some (Some t, e') => Some (t, e') | _ => None end else Some ([], e)
  end.
Definition laid_out (sl : slice) (r empty : str) (c : column) : str :=
  match c with CRecip => r | _ => or_else empty (content sl c) end.

Lemma recip_spined sl e x e' : hasSpines (sl_type sl) = true -> recip_column sl e = Some (x, e') -> exists t, x = Some t.
Proof.
  unfold recip_column. destruct (sl_type sl); cbn; intros H E; try discriminate H;
    try (injection E as <- <-; eexists; reflexivity).
  destruct (first_text _ _); [injection E as <- <-; eauto|discriminate].
Qed.

Lemma slice_line g sl line : hasSpines (sl_type sl) = true -> fits g sl -> sliceLine g sl = Some line ->
  exists r empty, line = map (laid_out sl r empty) (columns g (shape sl)).
Proof.
  intros SP F. unfold sliceLine. destruct (filler sl) as [e0|]; [|discriminate].
  assert (BODY : forall empty r, flat_map (part_tokens g empty (hasSpines (sl_type sl))) (rev (indexed (sl_parts sl)))
     = map (laid_out sl r empty) (flat_map (fun p => part_columns g p (nth p (shape sl) [])) (down (length (shape sl))))).
  { intros empty r. rewrite SP, (rev_indexed no_part), map_flat_map. unfold shape at 2. rewrite map_length. apply flat_map_ext_in. intros p I.
    apply in_down in I. fold (part_at sl p). rewrite part_line by assumption. apply map_ext_in. intros c IC.
    destruct c; try reflexivity. exfalso. unfold part_columns in IC. apply in_app_or in IC. destruct IC as [IC|IC].
    - apply in_flat_map in IC. destruct IC as (s & _ & IC). unfold staff_columns in IC. apply in_app_or in IC.
      destruct IC as [IC|IC]; [apply in_map_iff in IC; destruct IC as (? & X & _); discriminate|]. apply in_app_or in IC.
      destruct IC as [IC|IC]; [destruct (hasXmlIds g p); [destruct IC as [IC|[]]; discriminate|destruct IC]|].
      apply in_map_iff in IC. destruct IC as (? & X & _). discriminate.
    - destruct (hasDynamics g p), (hasFiguredBass g p), (hasHarmony g p); cbn in IC; intuition discriminate. }
  unfold columns. destruct (g_recip g) eqn:R.
  - destruct (recip_column sl e0) as [(x, empty)|] eqn:RC; [|discriminate]. destruct (recip_spined sl e0 x empty SP RC) as (t & ->).
    intros E. injection E as <-. exists t, empty. rewrite SP at 1. cbn [app map laid_out]. f_equal. apply BODY.
  - intros E. injection E as <-. exists [], e0. cbn [app]. apply BODY.
Qed.

(** Side columns do not depend on voices. *)
Lemma staff_sides_columns g p s nv : filter is_side (staff_columns g p s nv)
  = (if hasXmlIds g p then [CXmlId p s] else []) ++ map (CVerse p s) (seq 0 (verseCount g p s)).
Proof.
  unfold staff_columns. rewrite !filter_app. rewrite filter_nothing.
  - cbn [app]. f_equal; [destruct (hasXmlIds g p); reflexivity|]. apply filter_all. intros c I. apply in_map_iff in I. destruct I as (? & <- & _). reflexivity.
  - intros c I. apply in_map_iff in I. destruct I as (? & <- & _). reflexivity.
Qed.
Lemma part_sides_columns g p vs vs' : length vs = length vs' -> filter is_side (part_columns g p vs) = filter is_side (part_columns g p vs').
Proof.
  intros E. unfold part_columns. rewrite !filter_app, !filter_flat_map, E. f_equal. apply flat_map_ext_in. intros s _.
  rewrite !staff_sides_columns. reflexivity.
Qed.
Lemma sides_columns g sh sh' : map (@length nat) sh = map (@length nat) sh' -> filter is_side (columns g sh) = filter is_side (columns g sh').
Proof.
  intros E. unfold columns. rewrite !filter_app, !filter_flat_map. f_equal.
  assert (L : length sh = length sh') by (rewrite <- (map_length (@length nat) sh), E, map_length; reflexivity).
  rewrite L. apply flat_map_ext_in. intros p _. apply part_sides_columns.
  change 0 with (length (@nil nat)) in *. rewrite <- !(map_nth (@length nat)), E. reflexivity.
Qed.

(** Every token has its column. *)
Lemma has_column g sl c tok : fits g sl -> content sl c = Some tok -> In c (columns g (shape sl)).
Proof.
  intros F E. unfold columns. apply in_or_app. right. apply in_flat_map.
  assert (PA : forall p s, staff_at sl p s <> no_staff -> p < length (sl_parts sl) /\ s < length (pt_staves (part_at sl p))).
  { intros p s N. split.
    - destruct (Nat.lt_ge_cases p (length (sl_parts sl))) as [L|L]; [exact L|]. exfalso. apply N. unfold staff_at, part_at. rewrite (nth_overflow (sl_parts sl)) by exact L. destruct s; reflexivity.
    - destruct (Nat.lt_ge_cases s (length (pt_staves (part_at sl p)))) as [L|L]; [exact L|]. exfalso. apply N. unfold staff_at. apply nth_overflow. exact L. }
  assert (PP : forall p, part_at sl p <> no_part -> p < length (sl_parts sl)).
  { intros p N. destruct (Nat.lt_ge_cases p (length (sl_parts sl))) as [L|L]; [exact L|]. exfalso. apply N. unfold part_at. apply nth_overflow. exact L. }
  assert (SH : forall p, nth p (shape sl) [] = map (fun st => length (st_voices st)) (pt_staves (part_at sl p))).
  { intros p. unfold shape, part_at. rewrite <- (map_nth (fun pt => map (fun st => length (st_voices st)) (pt_staves pt))). reflexivity. }
  assert (IS : forall p s, staff_at sl p s <> no_staff -> In c (staff_columns g p s (length (st_voices (staff_at sl p s)))) ->
     exists p, In p (down (length (shape sl))) /\ In c (part_columns g p (nth p (shape sl) []))).
  { intros p s N I. destruct (PA p s N) as (L1 & L2). exists p. split; [apply in_down; unfold shape; rewrite map_length; exact L1|].
    unfold part_columns. apply in_or_app. left. apply in_flat_map. exists s. rewrite SH, map_length. split; [apply in_down; exact L2|].
    change 0 with (length (st_voices no_staff)). rewrite (map_nth (fun st => length (st_voices st))). exact I. }
  assert (IP : forall p, part_at sl p <> no_part -> In c ((if hasDynamics g p then [CDynamics p] else []) ++ (if hasFiguredBass g p then [CFiguredBass p] else [])
     ++ (if hasHarmony g p then [CHarmony p] else [])) ->
     exists p, In p (down (length (shape sl))) /\ In c (part_columns g p (nth p (shape sl) []))).
  { intros p N I. exists p. split; [apply in_down; unfold shape; rewrite map_length; apply PP; exact N|]. unfold part_columns. apply in_or_app. right. exact I. }
  destruct c as [|p s v|p s|p s i|p|p|p]; cbn in E; [discriminate|..]; destruct (F p) as (FS & FH & FD & FB).
  - apply (IS p s); [intros X; rewrite X in E; destruct v; discriminate|]. unfold staff_columns. apply in_or_app. left. apply in_map. apply in_seq.
    assert (V : v < length (st_voices (staff_at sl p s))).
    { destruct (Nat.lt_ge_cases v (length (st_voices (staff_at sl p s)))) as [L|L]; [exact L|]. rewrite nth_overflow in E by exact L. discriminate. }
    lia.
  - apply (IS p s); [intros X; rewrite X in E; discriminate|]. unfold staff_columns. rewrite (proj2 (FS s)) by (rewrite E; discriminate).
    apply in_or_app. right. left. reflexivity.
  - apply (IS p s); [intros X; rewrite X in E; destruct i; discriminate|]. unfold staff_columns. apply in_or_app. right. apply in_or_app. right. apply in_map. apply in_seq.
    assert (V : i < length (sd_verses (st_side (staff_at sl p s)))).
    { destruct (Nat.lt_ge_cases i (length (sd_verses (st_side (staff_at sl p s))))) as [L|L]; [exact L|]. rewrite nth_overflow in E by exact L. discriminate. }
    pose proof (proj1 (FS s)). lia.
  - apply (IP p); [intros X; rewrite X in E; discriminate|]. rewrite FD by (rewrite E; discriminate). left. reflexivity.
  - apply (IP p); [intros X; rewrite X in E; discriminate|]. rewrite FB by (rewrite E; discriminate). apply in_or_app. right. left. reflexivity.
  - apply (IP p); [intros X; rewrite X in E; discriminate|]. rewrite FH by (rewrite E; discriminate). apply in_or_app. right. apply in_or_app. right. left. reflexivity.
Qed.

(** ** Lines with one voice for each staff *)

Definition one_each (sl : slice) : list (list nat) := map (fun pt => map (fun _ => 1) (pt_staves pt)) (sl_parts sl).

Definition exclusive_text (interp : str) (c : column) : str :=
  match c with
  | CRecip => S_ "**recip" | CVoice _ _ _ => interp | CXmlId _ _ => S_ "**xmlid" | CVerse _ _ _ => S_ "**text"
  | CDynamics _ => S_ "**dynam" | CFiguredBass _ => S_ "**fb" | CHarmony _ => S_ "**harte"
  end.
Definition part_number (p : nat) : str := S_ "*part" ++ show_N (N.of_nat (S p)).
Definition part_text (c : column) : str :=
  match c with
  | CRecip => S_ "*"
  | CVoice p _ _ | CXmlId p _ | CVerse p _ _ | CDynamics p | CFiguredBass p | CHarmony p => part_number p
  end.
(** Staves are numbered from 1 through the parts. *)
Definition staff_number (sl : slice) (p s : nat) : nat := staff_total (firstn p (sl_parts sl)) + S s.
Definition staff_numbers (sl : slice) (p : nat) : list str :=
  map (fun s => show_N (N.of_nat (staff_number sl p s))) (seq 0 (length (pt_staves (part_at sl p)))).
Definition staff_column_text (sl : slice) (c : column) : str :=
  match c with
  | CRecip | CFiguredBass _ | CHarmony _ => S_ "*"
  | CVoice p s _ | CXmlId p s | CVerse p s _ => S_ "*staff" ++ show_N (N.of_nat (staff_number sl p s))
  | CDynamics p => S_ "*staff" ++ join (S_ "/") (staff_numbers sl p)
  end.

Lemma map_const_seq {A} (x : A) k n : map (fun _ : nat => x) (seq k n) = repeat x n.
Proof. apply map_repeat_seq. reflexivity. Qed.

Lemma one_each_nth sl p : nth p (one_each sl) [] = map (fun _ => 1) (pt_staves (part_at sl p)).
Proof. unfold one_each, part_at. rewrite <- (map_nth (fun pt => map (fun _ => 1) (pt_staves pt))). reflexivity. Qed.
Lemma ones_nth {A} (l : list A) s : s < length l -> nth s (map (fun _ => 1) l) 0 = 1.
Proof. revert s. induction l as [|x l IH]; intros [|s] H; cbn in *; [lia|lia|reflexivity|]. apply IH. lia. Qed.

Lemma one_staff g p s (f : column -> str) x t u : f (CVoice p s 0) = x -> f (CXmlId p s) = t -> (forall i, f (CVerse p s i) = u) ->
  x :: side_staff g p s t u = map f (staff_columns g p s 1).
Proof.
  intros X T U. unfold side_staff, staff_columns. cbn [Nat.max seq map app]. rewrite X. f_equal. rewrite map_app. f_equal.
  - destruct (hasXmlIds g p); cbn; rewrite ?T; reflexivity.
  - rewrite map_map. symmetry. apply map_repeat_seq. intros i _. apply U.
Qed.
Lemma one_part g p (f : column -> str) d b h : f (CDynamics p) = d -> f (CFiguredBass p) = b -> f (CHarmony p) = h ->
  side_part g p d b h = map f ((if hasDynamics g p then [CDynamics p] else []) ++ (if hasFiguredBass g p then [CFiguredBass p] else [])
     ++ (if hasHarmony g p then [CHarmony p] else [])).
Proof.
  intros <- <- <-. unfold side_part. destruct (hasDynamics g p), (hasFiguredBass g p), (hasHarmony g p); reflexivity.
Qed.

Lemma one_each_columns g sl : columns g (one_each sl) = (if g_recip g then [CRecip] else [])
  ++ flat_map (fun p => flat_map (fun s => staff_columns g p s 1) (down (length (pt_staves (part_at sl p))))
        ++ (if hasDynamics g p then [CDynamics p] else []) ++ (if hasFiguredBass g p then [CFiguredBass p] else [])
        ++ (if hasHarmony g p then [CHarmony p] else [])) (down (length (sl_parts sl))).
Proof.
  unfold columns. f_equal. unfold one_each at 2. rewrite map_length. apply flat_map_ext_in. intros p _. unfold part_columns.
  rewrite one_each_nth, map_length. f_equal. apply flat_map_ext_in. intros s I. apply in_down in I. rewrite ones_nth by exact I. reflexivity.
Qed.

Lemma exclusive_line g interp sl : exclusiveLine g interp sl = map (exclusive_text interp) (columns g (one_each sl)).
Proof.
  rewrite one_each_columns, map_app. unfold exclusiveLine, with_recip.
  match goal with |- (if _ then _ :: ?x else ?x) = _ ++ ?y => assert (E : x = y); [|rewrite E; destruct (g_recip g); reflexivity] end.
  rewrite (rev_indexed no_part), map_flat_map. apply flat_map_ext_in. intros p _. fold (part_at sl p). rewrite map_app.
  rewrite <- (one_part g p (exclusive_text interp) (S_ "**dynam") (S_ "**fb") (S_ "**harte")) by reflexivity. f_equal.
  rewrite (rev_indexed no_staff), map_flat_map. apply flat_map_ext_in. intros s _. cbn [fst]. apply one_staff; reflexivity.
Qed.
Lemma part_line_text g sl : partLine g sl = map part_text (columns g (one_each sl)).
Proof.
  rewrite one_each_columns, map_app. unfold partLine, with_recip.
  match goal with |- (if _ then _ :: ?x else ?x) = _ ++ ?y => assert (E : x = y); [|rewrite E; destruct (g_recip g); reflexivity] end.
  rewrite (rev_indexed no_part), map_flat_map. apply flat_map_ext_in. intros p _. fold (part_at sl p). rewrite map_app.
  cbv zeta. fold (part_number p).
  rewrite <- (one_part g p part_text (part_number p) (part_number p) (part_number p)) by reflexivity. f_equal.
  rewrite (rev_indexed no_staff), map_flat_map. apply flat_map_ext_in. intros s _. cbn [fst]. apply one_staff; reflexivity.
Qed.

(** The staff line counts down. *)
Lemma staves_text_spec g sl p : forall k n, n = staff_total (firstn p (sl_parts sl)) + k -> forall (st : nat -> staff),
  staves_text g p n (map (fun i => (i, st i)) (down k)) = map (staff_column_text sl) (flat_map (fun s => staff_columns g p s 1) (down k)).
Proof.
  induction k as [|k IH]; intros n E st; [reflexivity|]. unfold down in *. rewrite seq_S, Nat.add_0_l, rev_app_distr. cbn [rev app map flat_map staves_text fst].
  rewrite map_app, <- (IH (n - 1) ltac:(lia) st).
  assert (X : staff_text n = S_ "*staff" ++ show_N (N.of_nat (staff_number sl p k))).
  { unfold staff_text, staff_number. do 3 f_equal. lia. }
  rewrite X. rewrite <- (one_staff g p k (staff_column_text sl) (S_ "*staff" ++ show_N (N.of_nat (staff_number sl p k))) (S_ "*staff" ++ show_N (N.of_nat (staff_number sl p k))) (S_ "*staff" ++ show_N (N.of_nat (staff_number sl p k)))) by reflexivity. reflexivity.
Qed.
Lemma staff_total_snoc ps p : staff_total (ps ++ [p]) = staff_total ps + length (pt_staves p).
Proof. induction ps as [|q ps IH]; cbn; [lia|]. unfold staff_total in *. rewrite IH. lia. Qed.
Lemma firstn_S_nth {A} (d : A) l n : n < length l -> firstn (S n) l = firstn n l ++ [nth n l d].
Proof. revert n. induction l as [|x l IH]; intros n H; [cbn in H; lia|]. destruct n; [reflexivity|]. cbn [firstn nth app]. f_equal. apply IH. cbn in H. lia. Qed.

Lemma parts_text_spec g sl : forall k n, k <= length (sl_parts sl) -> n = staff_total (firstn k (sl_parts sl)) ->
  parts_text g n (map (fun i => (i, part_at sl i)) (down k)) = map (staff_column_text sl)
    (flat_map (fun p => flat_map (fun s => staff_columns g p s 1) (down (length (pt_staves (part_at sl p))))
        ++ (if hasDynamics g p then [CDynamics p] else []) ++ (if hasFiguredBass g p then [CFiguredBass p] else [])
        ++ (if hasHarmony g p then [CHarmony p] else [])) (down k)).
Proof.
  induction k as [|k IH]; intros n L E; [reflexivity|].
  assert (DS : down (S k) = k :: down k) by (unfold down; rewrite seq_S, Nat.add_0_l, rev_app_distr; reflexivity).
  rewrite DS. cbn [map flat_map parts_text]. rewrite (firstn_S_nth no_part) in E by lia. rewrite staff_total_snoc in E. fold (part_at sl k) in E.
  rewrite !map_app, <- (IH (n - length (pt_staves (part_at sl k)))) by lia. rewrite <- !app_assoc. f_equal.
  - rewrite (indexed_map no_staff), <- map_rev. fold (down (length (pt_staves (part_at sl k)))).
    exact (staves_text_spec g sl k _ n E (fun i => nth i (pt_staves (part_at sl k)) no_staff)).
  - rewrite !app_assoc. f_equal. rewrite <- !map_app. rewrite <- app_assoc. apply one_part; [|reflexivity|reflexivity].
    symmetry. unfold staff_column_text, dynamics_text, staff_numbers. apply (f_equal (fun x => S_ "*staff" ++ join (S_ "/") x)).
    replace (S n - length (pt_staves (part_at sl k))) with (staff_total (firstn k (sl_parts sl)) + 1) by lia.
    generalize (length (pt_staves (part_at sl k))). intros m. unfold staff_number.
    assert (G : forall b a, map (fun i => show_N (N.of_nat i)) (seq (a + S b) m) = map (fun s => show_N (N.of_nat (a + S s))) (seq b m)).
    { induction m as [|m IHm]; intros b a; [reflexivity|]. cbn [seq map]. f_equal. replace (S (a + S b)) with (a + S (S b)) by lia. apply IHm. }
    apply G.
Qed.
Lemma staff_line_text g sl : staffLine g sl = map (staff_column_text sl) (columns g (one_each sl)).
Proof.
  rewrite one_each_columns, map_app. unfold staffLine, with_recip.
  match goal with |- (if _ then _ :: ?x else ?x) = _ ++ ?y => assert (E : x = y); [|rewrite E; destruct (g_recip g); reflexivity] end.
  rewrite (indexed_map no_part), <- map_rev. apply (parts_text_spec g sl (length (sl_parts sl))); [lia|]. rewrite firstn_all. reflexivity.
Qed.

Lemma sum_rev {A} (f : A -> nat) l : fold_right (fun y n => f y + n) 0 (rev l) = fold_right (fun y n => f y + n) 0 l.
Proof.
  assert (G : forall l m, fold_right (fun y n => f y + n) m l = fold_right (fun y n => f y + n) 0 l + m).
  { induction l0 as [|y r IH]; intros m; cbn; [lia|]. rewrite IH. lia. }
  induction l as [|y l IH]; [reflexivity|]. cbn. rewrite fold_right_app. cbn. rewrite G, IH. lia.
Qed.
Lemma sum_eq {A} (f g : A -> nat) l : (forall x, In x l -> f x = g x) -> fold_right (fun y n => f y + n) 0 l = fold_right (fun y n => g y + n) 0 l.
Proof. induction l as [|y l IH]; intros H; [reflexivity|]. cbn. rewrite (H y (or_introl eq_refl)), IH; [reflexivity|]. intros z I. apply H. right. exact I. Qed.
Lemma flat_map_sum {A B} (f : A -> list B) l : length (flat_map f l) = fold_right (fun y n => length (f y) + n) 0 l.
Proof. induction l as [|y l IH]; [reflexivity|]. cbn. rewrite app_length, IH. reflexivity. Qed.

Lemma down_length {B} (f : nat -> list B) n : length (flat_map f (down n)) = length (flat_map f (seq 0 n)).
Proof. rewrite !flat_map_sum. apply sum_rev. Qed.
Lemma all_repeat {A} (x : A) l : (forall y, In y l -> y = x) -> l = repeat x (length l).
Proof. induction l as [|y l IH]; intros H; [reflexivity|]. cbn. rewrite (H y (or_introl eq_refl)). f_equal. apply IH. intros z I. apply H. right. exact I. Qed.

Lemma in_side_staff g p s x t : In t (side_staff g p s x x) -> t = x.
Proof. unfold side_staff. rewrite in_app_iff. intros [I|I]; apply repeat_spec in I; exact I. Qed.
Lemma in_side_part g p x t : In t (side_part g p x x x) -> t = x.
Proof. unfold side_part. destruct (hasDynamics g p), (hasFiguredBass g p), (hasHarmony g p); cbn; intuition. Qed.

Lemma termination_line g sl : terminationLine g sl = map (fun _ => S_ "*-") (columns g (one_each sl)).
Proof.
  rewrite one_each_columns, map_app. unfold terminationLine, with_recip.
  match goal with |- (if _ then _ :: ?x else ?x) = _ ++ ?y => assert (E : x = y); [|rewrite E; destruct (g_recip g); reflexivity] end.
  match goal with |- ?x = _ => rewrite (all_repeat (S_ "*-") x) end.
  - match goal with |- _ = ?y => rewrite (all_repeat (S_ "*-") y) by (intros z I; apply in_map_iff in I; destruct I as (? & <- & _); reflexivity) end.
    f_equal. rewrite map_length, down_length, flat_map_sum, (indexed_map no_part), <- flat_map_sum, flat_map_map, !flat_map_sum. apply sum_eq.
    intros p _. fold (part_at sl p). rewrite !app_length. f_equal.
    + rewrite down_length, (indexed_map no_staff), flat_map_map, !flat_map_sum. apply sum_eq. intros s _.
      cbn [fst]. rewrite (one_staff g p s (fun _ => S_ "*-") _ _ _ eq_refl eq_refl (fun _ => eq_refl)), map_length. reflexivity.
    + rewrite (one_part g p (fun _ => S_ "*-") _ _ _ eq_refl eq_refl eq_refl), map_length, !app_length. reflexivity.
  - intros t I. apply in_flat_map in I. destruct I as ((p, pt) & _ & I). apply in_app_or in I. destruct I as [I|I].
    + apply in_flat_map in I. destruct I as ((s, st) & _ & I). cbn in I. destruct I as [<-|I]; [reflexivity|]. exact (in_side_staff _ _ _ _ _ I).
    + exact (in_side_part _ _ _ _ I).
Qed.

(** ** What the writer tells the grid *)

Lemma grown_nth i j l : nth j (grown i l) 0 = nth j l 0.
Proof.
  unfold grown. destruct (Nat.lt_ge_cases j (length l)) as [L|L]; [apply app_nth1; exact L|]. rewrite app_nth2 by exact L. rewrite nth_repeat. rewrite nth_overflow by exact L. reflexivity.
Qed.
Lemma grown_length i l : i < length (grown i l).
Proof. unfold grown. rewrite app_length, repeat_length. lia. Qed.
Lemma set_verses_same p s n g : p < length (g_verses g) -> verseCount (setVerseCount p s n g) p s = n.
Proof. intros L. unfold verseCount, setVerseCount. cbn [g_verses]. rewrite set_nth_same by exact L. apply set_nth_same. apply grown_length. Qed.
Lemma set_verses_other p s n g p' s' : (p, s) <> (p', s') -> verseCount (setVerseCount p s n g) p' s' = verseCount g p' s'.
Proof.
  intros N. unfold verseCount, setVerseCount. cbn [g_verses]. destruct (Nat.eq_dec p p') as [<-|D].
  - destruct (Nat.lt_ge_cases p (length (g_verses g))) as [L|L].
    + rewrite set_nth_same by exact L. rewrite set_nth_other by (intros E; apply N; congruence). apply grown_nth.
    + rewrite (nth_overflow (set_nth p _ _)) by (rewrite set_nth_length; exact L). rewrite (nth_overflow (g_verses g)) by exact L. reflexivity.
  - rewrite set_nth_other by exact D. reflexivity.
Qed.

(** A property of the state that every step keeps and one step brings about holds at the end. *)
Lemma fold_keeps {S A} (f : S -> A -> S) (P : S -> Prop) l : (forall s x, P s -> P (f s x)) -> forall s, P s -> P (fold_left f l s).
Proof. intros H. induction l as [|x l IH]; intros s I; [exact I|]. cbn. apply IH, H, I. Qed.
Lemma fold_brings {S A} (f : S -> A -> S) (I P : S -> Prop) x l :
  In x l -> (forall s y, I s -> I (f s y)) -> (forall s y, P s -> P (f s y)) -> (forall s, I s -> P (f s x)) ->
  forall s, I s -> P (fold_left f l s).
Proof.
  intros IN K1 K2 B. induction l as [|y l IH]; [destruct IN|]. intros s IS. cbn. destruct IN as [->|IN].
  - apply fold_keeps; [exact K2|apply B; exact IS].
  - apply IH; [exact IN|apply K1; exact IS].
Qed.

Definition hundred (g : grid) : Prop :=
  length (g_verses g) = 100 /\ length (g_harmony g) = 100 /\ length (g_dynamics g) = 100.

Lemma in_indexed {A} (d : A) l p : p < length l -> In (p, nth p l d) (indexed l).
Proof. intros L. rewrite (indexed_map d). apply in_map_iff. exists p. split; [reflexivity|]. apply in_seq. lia. Qed.

Section Transfer.
  Variables (counts : list nat) (recip : bool) (k : known).
  Let outer := fun g (x : nat * nat) => fold_left (fun g s => setVerseCount (fst x) s (k_verses k (fst x) s) g) (seq 0 (snd x)) g.

  Lemma set_good p s p' s' g : verseCount g p s = k_verses k p s ->
    verseCount (setVerseCount p' s' (k_verses k p' s') g) p s = k_verses k p s.
  Proof.
    intros E. destruct (Nat.eq_dec p p') as [<-|D]; [destruct (Nat.eq_dec s s') as [<-|D]|].
    - destruct (Nat.lt_ge_cases p (length (g_verses g))) as [L|L]; [apply set_verses_same; exact L|].
      rewrite <- E. unfold verseCount, setVerseCount. cbn [g_verses]. rewrite !nth_overflow with (l := g_verses g) by exact L.
      rewrite (nth_overflow (set_nth p _ _)) by (rewrite set_nth_length; exact L). reflexivity.
    - rewrite set_verses_other; [exact E|congruence].
    - rewrite set_verses_other; [exact E|congruence].
  Qed.
  Lemma set_hundred p s n g : hundred g -> hundred (setVerseCount p s n g).
  Proof. unfold hundred. cbn. rewrite set_nth_length. auto. Qed.
  Lemma outer_good p s g x : verseCount g p s = k_verses k p s -> verseCount (outer g x) p s = k_verses k p s.
  Proof. unfold outer. apply (fold_keeps _ (fun g => verseCount g p s = k_verses k p s)). intros g' s' E. apply set_good. exact E. Qed.
  Lemma outer_hundred g x : hundred g -> hundred (outer g x).
  Proof. unfold outer. apply fold_keeps. intros g' s' E. apply set_hundred. exact E. Qed.

  Lemma harmony_same p q g : hasHarmony g p = true -> hasHarmony (setHarmonyPresent q g) p = true.
  Proof.
    unfold hasHarmony. cbn. intros E. destruct (Nat.eq_dec q p) as [<-|D]; [|rewrite set_nth_other by exact D; exact E].
    destruct (Nat.lt_ge_cases q (length (g_harmony g))) as [L|L]; [apply set_nth_same; exact L|]. rewrite nth_overflow in E by exact L. discriminate.
  Qed.
  Lemma dynamics_same p q g : hasDynamics g p = true -> hasDynamics (setDynamicsPresent q g) p = true.
  Proof.
    unfold hasDynamics. cbn. intros E. destruct (Nat.eq_dec q p) as [<-|D]; [|rewrite set_nth_other by exact D; exact E].
    destruct (Nat.lt_ge_cases q (length (g_dynamics g))) as [L|L]; [apply set_nth_same; exact L|]. rewrite nth_overflow in E by exact L. discriminate.
  Qed.

  Lemma transfer_spec p : p < 100 -> p < length counts ->
    (forall s, s < nth p counts 0 -> verseCount (transfer counts recip k) p s = k_verses k p s)
    /\ (k_harmony k p = true -> hasHarmony (transfer counts recip k) p = true)
    /\ (k_dynamics k p = true -> hasDynamics (transfer counts recip k) p = true).
  Proof.
    intros H L. unfold transfer. set (g0 := mkGrid _ _ _ _ _ _).
    assert (H0 : hundred g0) by (unfold hundred, g0, new_grid; cbn [g_verses g_harmony g_dynamics]; rewrite !repeat_length; auto).
    set (g1 := fold_left _ (indexed counts) g0). change (fold_left outer (indexed counts) g0) in (value of g1).
    assert (H1 : hundred g1) by (apply fold_keeps; [apply outer_hundred|exact H0]).
    set (fh := fun g p => if k_harmony k p then setHarmonyPresent p g else g).
    assert (KH : forall g q, hundred g -> hundred (fh g q)).
    { intros g q I. unfold fh. destruct (k_harmony k q); [|exact I]. unfold hundred. cbn. rewrite set_nth_length. exact I. }
    set (g2 := fold_left fh (seq 0 (length counts)) g1).
    assert (H2 : hundred g2) by (apply fold_keeps; [apply KH|exact H1]).
    set (fd := fun g p => if k_dynamics k p then setDynamicsPresent p g else g).
    assert (KD : forall g q, hundred g -> hundred (fd g q)).
    { intros g q I. unfold fd. destruct (k_dynamics k q); [|exact I]. unfold hundred. cbn. rewrite set_nth_length. exact I. }
    assert (IP : In p (seq 0 (length counts))) by (apply in_seq; lia).
    repeat split.
    - intros s S'. apply (fold_keeps _ (fun g => verseCount g p s = k_verses k p s)).
      { intros g q E. unfold fd. destruct (k_dynamics k q); exact E. }
      apply (fold_keeps _ (fun g => verseCount g p s = k_verses k p s)).
      { intros g q E. unfold fh. destruct (k_harmony k q); exact E. }
      apply (fold_brings outer hundred (fun g => verseCount g p s = k_verses k p s) (p, nth p counts 0) (indexed counts)
        (in_indexed 0 counts p L) outer_hundred (fun g x => outer_good p s g x)); [|exact H0].
      intros g I. unfold outer. cbn [fst snd].
      apply (fold_brings _ hundred (fun g => verseCount g p s = k_verses k p s) s); [apply in_seq; lia|..|exact I].
      + intros g' y. apply set_hundred.
      + intros g' y. apply set_good.
      + intros g' (J & _). apply set_verses_same. rewrite J. exact H.
    - intros KP. apply (fold_keeps _ (fun g => hasHarmony g p = true)).
      { intros g q E. unfold fd. destruct (k_dynamics k q); exact E. }
      apply (fold_brings fh hundred (fun g => hasHarmony g p = true) p (seq 0 (length counts)) IP KH); [| |exact H1].
      + intros g q E. unfold fh. destruct (k_harmony k q); [apply harmony_same|]; exact E.
      + intros g (_ & J & _). unfold fh. rewrite KP. unfold hasHarmony. cbn. apply set_nth_same. rewrite J. exact H.
    - intros KP. apply (fold_brings fd hundred (fun g => hasDynamics g p = true) p (seq 0 (length counts)) IP KD); [| |exact H2].
      + intros g q E. unfold fd. destruct (k_dynamics k q); [apply dynamics_same|]; exact E.
      + intros g (_ & _ & J). unfold fd. rewrite KP. unfold hasDynamics. cbn. apply set_nth_same. rewrite J. exact H.
  Qed.
End Transfer.

(** ** What the writer knows *)

Definition known_side (k : known) (p : nat) (sd : side) : Prop :=
  (sd_harmony sd <> None -> k_harmony k p = true) /\ (sd_dynamics sd <> None -> k_dynamics k p = true) /\ sd_fb sd = None.
Definition known_verses (k : known) (p s : nat) (sd : side) : Prop := length (sd_verses sd) <= k_verses k p s /\ sd_xmlid sd = None.
Definition known_slice (k : known) (sl : slice) : Prop :=
  forall p pt, nth_error (sl_parts sl) p = Some pt ->
    known_side k p (pt_side pt) /\ forall s st, nth_error (pt_staves pt) s = Some st -> known_verses k p s (st_side st).

Lemma setVerse_length i t sd : length (sd_verses (setVerse i t sd)) = Nat.max (length (sd_verses sd)) (S i).
Proof. unfold setVerse. cbn [sd_verses]. rewrite set_nth_length, app_length, repeat_length. lia. Qed.

Lemma put_verses_length vs sd : length (sd_verses (put_verses vs sd)) = Nat.max (length (sd_verses sd)) (length vs) /\ sd_xmlid (put_verses vs sd) = sd_xmlid sd.
Proof.
  unfold put_verses, indexed. assert (G : forall (vs : list str) b sd, b <= length (sd_verses sd) \/ vs <> [] ->
    length (sd_verses (fold_left (fun sd x => setVerse (fst x) (Some (snd x)) sd) (combine (seq b (length vs)) vs) sd)) = Nat.max (length (sd_verses sd)) (if vs then 0 else b + length vs)
    /\ sd_xmlid (fold_left (fun sd x => setVerse (fst x) (Some (snd x)) sd) (combine (seq b (length vs)) vs) sd) = sd_xmlid sd).
  { clear. induction vs as [|v vs IH]; intros b sd _; [cbn; split; [lia|reflexivity]|]. cbn [length seq combine fold_left fst snd].
    destruct (IH (S b) (setVerse b (Some v) sd)) as (E1 & E2); [left; rewrite setVerse_length; lia|].
    rewrite E1, E2, setVerse_length. split; [|reflexivity]. destruct vs; cbn [length]; lia. }
  destruct (G vs 0 sd (or_introl (Nat.le_0_l _))) as (E1 & E2). rewrite E1, E2. split; [|reflexivity]. destruct vs; cbn; lia.
Qed.
Lemma put_labels_length ls sd : length (sd_verses (put_labels ls sd)) <= Nat.max (length (sd_verses sd)) (length ls) /\ sd_xmlid (put_labels ls sd) = sd_xmlid sd.
Proof.
  unfold put_labels, indexed. assert (G : forall (ls : list (option str)) b sd,
    length (sd_verses (fold_left (fun sd x => match snd x with Some l => setVerse (fst x) (Some l) sd | None => sd end) (combine (seq b (length ls)) ls) sd)) <= Nat.max (length (sd_verses sd)) (b + length ls)
    /\ sd_xmlid (fold_left (fun sd x => match snd x with Some l => setVerse (fst x) (Some l) sd | None => sd end) (combine (seq b (length ls)) ls) sd) = sd_xmlid sd).
  { clear. induction ls as [|v ls IH]; intros b sd; [cbn; split; [lia|reflexivity]|]. cbn [length seq combine fold_left fst snd].
    destruct v as [v|].
    - destruct (IH (S b) (setVerse b (Some v) sd)) as (E1 & E2). rewrite setVerse_length in E1. rewrite E2. split; [lia|reflexivity].
    - destruct (IH (S b) sd) as (E1 & E2). rewrite E2. split; [lia|reflexivity]. }
  exact (G ls 0 sd).
Qed.

Definition knows_more (k k' : known) : Prop :=
  (forall p s, k_verses k p s <= k_verses k' p s) /\ (forall p, k_harmony k p = true -> k_harmony k' p = true)
  /\ (forall p, k_dynamics k p = true -> k_dynamics k' p = true).
Lemma known_more k k' sl : knows_more k k' -> known_slice k sl -> known_slice k' sl.
Proof.
  intros (V & H & D) K p pt E. destruct (K p pt E) as ((K1 & K2 & K3) & K4). split; [repeat split; auto|].
  intros s st E'. destruct (K4 s st E') as (L & X). split; [specialize (V p s); lia|exact X].
Qed.
Lemma more_verses p s n k : knows_more k (report_verses p s n k).
Proof. repeat split; auto. intros p' s'. cbn. destruct (_ && _); lia. Qed.
Lemma more_harmony p k : knows_more k (report_harmony p k).
Proof. repeat split; auto. intros p' E. cbn. rewrite E. apply Bool.orb_true_r. Qed.
Lemma more_dynamics p k : knows_more k (report_dynamics p k).
Proof. repeat split; auto. intros p' E. cbn. rewrite E. apply Bool.orb_true_r. Qed.

Lemma known_staff_side k p s f sl : known_slice k sl ->
  (forall st, get_staff p s sl = Some st -> known_verses k p s (f (st_side st))) -> known_slice k (on_staff_side p s f sl).
Proof.
  intros K F p' pt' E. unfold on_staff_side, on_part in E. cbn in E. apply on_nth_in in E. destruct E as [(<- & pt & E & ->)|E]; [|exact (K p' pt' E)].
  cbn. destruct (K p pt E) as (K1 & K2). split; [exact K1|]. intros s' st' E'. apply on_nth_in in E'. destruct E' as [(<- & st & E' & ->)|E']; [|exact (K2 s' st' E')].
  cbn. apply F. unfold get_staff. rewrite E. exact E'.
Qed.
Lemma known_part_side k p f sl : known_slice k sl -> (forall sd, known_side k p sd -> known_side k p (f sd)) -> known_slice k (on_part_side p f sl).
Proof.
  intros K F p' pt' E. unfold on_part_side, on_part in E. cbn in E. apply on_nth_in in E. destruct E as [(<- & pt & E & ->)|E]; [|exact (K p' pt' E)].
  cbn. destruct (K p pt E) as (K1 & K2). split; [apply F; exact K1|exact K2].
Qed.
Lemma known_bare k sl : bare sl = true -> known_slice k sl.
Proof.
  unfold bare. intros B p pt E. apply forallb_forall with (x := pt) in B; [|exact (nth_error_In _ _ E)]. apply andb_prop in B. destruct B as (B1 & B2).
  assert (S0 : forall sd, bare_side sd = true -> sd = no_side).
  { intros [v h x d f]. unfold bare_side. cbn. destruct v, h, x, d, f; try discriminate. reflexivity. }
  apply S0 in B1. rewrite B1. split; [repeat split; cbn; congruence|]. intros s st E'. apply forallb_forall with (x := st) in B2; [|exact (nth_error_In _ _ E')].
  apply S0 in B2. rewrite B2. split; cbn; [lia|reflexivity].
Qed.
Lemma known_on_nth k i f l : (forall sl, In sl l -> known_slice k sl) -> (forall sl, nth_error l i = Some sl -> known_slice k sl -> known_slice k (f sl)) ->
  forall sl, In sl (on_nth i f l) -> known_slice k sl.
Proof.
  intros K F sl I. apply In_nth_error in I. destruct I as (j & E). apply on_nth_in in E. destruct E as [(-> & x & E & ->)|E].
  - apply F; [exact E|]. apply K. exact (nth_error_In _ _ E).
  - apply K. exact (nth_error_In _ _ E).
Qed.

Lemma nth_error_set_same {A} (x : A) l : forall i, i < length l -> nth_error (set_nth i x l) i = Some x.
Proof. induction l as [|y l IH]; intros [|i] H; cbn in *; [lia|lia|reflexivity|]. apply IH. lia. Qed.
Lemma on_nth_same {A} i (f : A -> A) l x : nth_error l i = Some x -> nth_error (on_nth i f l) i = Some (f x).
Proof. intros E. unfold on_nth. rewrite E. apply nth_error_set_same. apply nth_error_Some. rewrite E. discriminate. Qed.
Lemma get_put p s f sl st : get_staff p s sl = Some st -> get_staff p s (on_staff_side p s f sl) = Some (mkStaff (st_voices st) (f (st_side st))).
Proof.
  unfold get_staff, on_staff_side, on_part. cbn [sl_parts]. destruct (nth_error (sl_parts sl) p) as [pt|] eqn:E; [|discriminate]. intros E'.
  rewrite (on_nth_same _ _ _ _ E). cbn [pt_staves]. exact (on_nth_same _ _ _ _ E').
Qed.

Lemma step_known st o : (forall sl, In sl (fst st) -> known_slice (snd st) sl) ->
  forall sl, In sl (fst (run_step st o)) -> known_slice (snd (run_step st o)) sl.
Proof.
  destruct st as (l, k). cbn [fst snd]. intros K. destruct o as [i sl0|i p s vs labels|i p tok|i p tok]; cbn [run_step].
  - destruct (bare sl0) eqn:B; [|exact K]. intros sl I. cbn [fst snd] in *. apply in_app_or in I. destruct I as [I|[<-|I]].
    + apply K. rewrite <- (firstn_skipn i l). apply in_or_app. left. exact I.
    + apply known_bare. exact B.
    + apply K. rewrite <- (firstn_skipn i l). apply in_or_app. right. exact I.
  - destruct (nth_error l i) as [sl0|] eqn:E; [|exact K]. destruct (get_staff p s sl0) as [st0|] eqn:GS; [|exact K]. cbn [fst snd].
    rewrite (on_nth_same _ _ _ _ E). rewrite (get_put p s (put_verses vs) _ _ GS). cbn [verses_of st_side].
    set (n := length (sd_verses (put_verses vs (st_side st0)))).
    assert (N : n = Nat.max (length (sd_verses (st_side st0))) (length vs)) by (apply put_verses_length).
    set (k1 := report_verses p s n k).
    assert (KN : n <= k_verses k1 p s) by (unfold k1; cbn; rewrite !Nat.eqb_refl; cbn; lia).
    assert (K1 : forall sl, In sl (on_nth i (on_staff_side p s (put_verses vs)) l) -> known_slice k1 sl).
    { apply known_on_nth.
      - intros sl I. apply (known_more k); [apply more_verses|apply K; exact I].
      - intros sl E' KS. rewrite E in E'. injection E' as <-. apply known_staff_side; [exact KS|]. intros st GS'. rewrite GS in GS'. injection GS' as <-.
        split; [exact KN|]. rewrite (proj2 (put_verses_length vs _)). unfold get_staff in GS. destruct (nth_error (sl_parts sl0) p) as [pt|] eqn:EP; [|discriminate].
        exact (proj2 (proj2 (KS p pt EP) s st0 GS)). }
    destruct labels as [(j, ls)|]; [|exact K1].
    destruct (nth_error (on_nth i (on_staff_side p s (put_verses vs)) l) j) as [sj|] eqn:EJ; [|exact K1].
    destruct (Nat.eqb (verses_of (get_staff p s sj)) 0) eqn:Z; [|exact K1]. apply Nat.eqb_eq in Z.
    apply known_on_nth; [exact K1|]. intros sl E' KS. rewrite EJ in E'. injection E' as <-. apply known_staff_side; [exact KS|]. intros st GS'.
    rewrite GS' in Z. cbn in Z. destruct (put_labels_length (firstn (length vs) ls) (st_side st)) as (L1 & L2). split.
    + rewrite Z in L1. pose proof (firstn_le_length (length vs) ls). lia.
    + rewrite L2. unfold get_staff in GS'. destruct (nth_error (sl_parts sj) p) as [pt|] eqn:EP; [|discriminate]. exact (proj2 (proj2 (KS p pt EP) s st GS')).
  - cbn [fst snd]. apply known_on_nth.
    + intros sl I. apply (known_more k); [apply more_harmony|apply K; exact I].
    + intros sl _ KS. apply known_part_side; [exact KS|]. intros sd (S1 & S2 & S3). repeat split; cbn; auto. intros _. rewrite Nat.eqb_refl. reflexivity.
  - cbn [fst snd]. apply known_on_nth.
    + intros sl I. apply (known_more k); [apply more_dynamics|apply K; exact I].
    + intros sl _ KS. apply known_part_side; [exact KS|]. intros sd (S1 & S2 & S3). repeat split; cbn; auto. intros _. rewrite Nat.eqb_refl. reflexivity.
Qed.

Lemma run_known os : forall st, (forall sl, In sl (fst st) -> known_slice (snd st) sl) ->
  forall sl, In sl (fst (fold_left run_step os st)) -> known_slice (snd (fold_left run_step os st)) sl.
Proof. induction os as [|o os IH]; intros st K; [exact K|]. cbn. apply IH. apply step_known. exact K. Qed.

(** The slice has no parts or staves beyond those counted. *)
Definition counted (counts : list nat) (sl : slice) : Prop :=
  length (sl_parts sl) <= length counts /\ forall p, length (pt_staves (part_at sl p)) <= nth p counts 0.

Lemma known_fits counts recip k sl : length counts <= 100 -> counted counts sl -> known_slice k sl -> fits (transfer counts recip k) sl.
Proof.
  intros H (C1 & C2) K p. destruct (nth_error (sl_parts sl) p) as [pt|] eqn:E.
  - assert (EP : part_at sl p = pt) by (apply nth_error_nth; exact E).
    assert (L : p < length (sl_parts sl)) by (apply nth_error_Some; rewrite E; discriminate).
    destruct (transfer_spec counts recip k p ltac:(lia) ltac:(lia)) as (T1 & T2 & T3). destruct (K p pt E) as ((K1 & K2 & K3) & K4).
    unfold staff_at. rewrite EP. split; [intros s; split|split; [intros X; apply T2, K1, X|split; [intros X; apply T3, K2, X|rewrite K3; congruence]]].
    + destruct (nth_error (pt_staves pt) s) as [st|] eqn:ES.
      * rewrite (nth_error_nth _ _ no_staff ES). destruct (K4 s st ES) as (LV & _).
        assert (LS : s < length (pt_staves pt)) by (apply nth_error_Some; rewrite ES; discriminate).
        specialize (C2 p). rewrite EP in C2. rewrite T1 by lia. exact LV.
      * apply nth_error_None in ES. rewrite nth_overflow by exact ES. cbn. lia.
    + destruct (nth_error (pt_staves pt) s) as [st|] eqn:ES.
      * rewrite (nth_error_nth _ _ no_staff ES). destruct (K4 s st ES) as (_ & X). rewrite X. congruence.
      * apply nth_error_None in ES. rewrite nth_overflow by exact ES. cbn. congruence.
  - apply nth_error_None in E. assert (EP : part_at sl p = no_part) by (apply nth_overflow; exact E). unfold staff_at. rewrite EP.
    cbn. repeat split; try congruence; destruct s; cbn; try lia; congruence.
Qed.
