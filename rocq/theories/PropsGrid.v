(** Properties of the lines of the exported file. *)
From Coq Require Import Lia.
From Verif Require Import PyStr PyStrProofs RecipModel GridModel GridProofs.
From Verif Require MeasureModel.
From Coq Require Import QArith.
Local Close Scope Q_scope.
Import MeasureModel(slicetype, Notes, GraceNotes, Measures, Clefs, Layouts, LocalComments,
  GlobalComments, GlobalLayouts, ReferenceRecords, Invalid).

(** The two slices are of the same score: same parts, same staves in them. *)
Definition same_staves (a b : slice) : Prop :=
  map (fun pt => length (pt_staves pt)) (sl_parts a) = map (fun pt => length (pt_staves pt)) (sl_parts b).

(** ** C35 *)

Definition plain_part : part := mkPart [mkStaff [Some (S_ "4c")] no_side] no_side.
Definition many_parts : slice := mkSlice Notes 1 (repeat plain_part 101).
Definition c35_steps : list step := [NewSlice 0 many_parts; NewSlice 0 many_parts; HarmonyAt 0 100 (S_ "C")].
(** The claim without restriction: two spined lines of slices with the same parts, staves and
    voices have the same number of columns, and so has the line of exclusive interpretations.
    The grid has room for a hundred parts: what is known of later ones is dropped in silence,
    but a chord symbol of such a part is written all the same. *)
Theorem C35_refuted : exists counts os a b la lb,
  let st := fold_left run_step os ([], nothing_known) in
  let g := transfer counts false (snd st) in
  fst st = [a; b] /\ same_staves a b /\ shape a = shape b
  /\ hasSpines (sl_type a) = true /\ hasSpines (sl_type b) = true
  /\ sliceLine g a = Some la /\ sliceLine g b = Some lb
  /\ length la = 102 /\ length lb = 101 /\ length (exclusiveLine g (S_ "**kern") a) = 101.
Proof.
  exists (repeat 1 101), c35_steps. do 4 eexists. cbv zeta.
  do 9 (split; [vm_compute; reflexivity|]). vm_compute; reflexivity.
Qed.
Print Assumptions C35_refuted.

(** The claim for slices that hold nothing the grid does not know of.  The line is the row of
    the columns, each with the token the slice has for it; no token of the slice is without
    column; a second slice with the same staves, whatever its voices, has the same side
    columns in the same order; and the five lines around the slices have these columns too,
    with one voice for each staff. *)
Theorem C35_partial : forall g a la,
  hasSpines (sl_type a) = true -> fits g a -> sliceLine g a = Some la ->
  (exists r empty, la = map (laid_out a r empty) (columns g (shape a)))
  /\ (forall c tok, content a c = Some tok -> In c (columns g (shape a)))
  /\ (forall b, same_staves a b -> filter is_side (columns g (shape a)) = filter is_side (columns g (shape b))
        /\ filter is_side (columns g (shape a)) = filter is_side (columns g (one_each b))
        /\ (forall lb, hasSpines (sl_type b) = true -> fits g b -> sliceLine g b = Some lb ->
              length lb + length (filter (fun c => negb (is_side c)) (columns g (shape a)))
              = length la + length (filter (fun c => negb (is_side c)) (columns g (shape b)))))
  /\ (forall interp, exclusiveLine g interp a = map (exclusive_text interp) (columns g (one_each a)))
  /\ partLine g a = map part_text (columns g (one_each a))
  /\ staffLine g a = map (staff_column_text a) (columns g (one_each a))
  /\ terminationLine g a = map (fun _ => S_ "*-") (columns g (one_each a)).
Proof.
  intros g a la SP F E.
  assert (SH : forall b, same_staves a b -> map (@length nat) (shape a) = map (@length nat) (shape b)
     /\ map (@length nat) (shape a) = map (@length nat) (one_each b)).
  { intros b S'. assert (X : forall x, map (@length nat) (shape x) = map (fun pt => length (pt_staves pt)) (sl_parts x)
      /\ map (@length nat) (one_each x) = map (fun pt => length (pt_staves pt)) (sl_parts x)).
    { intros x. unfold shape, one_each. rewrite !map_map. split; apply map_ext; intros pt; apply map_length. }
    rewrite (proj1 (X a)), (proj1 (X b)), (proj2 (X b)). unfold same_staves in S'. auto. }
  split; [apply slice_line; assumption|]. split; [intros c tok; apply has_column; exact F|]. split.
  - intros b S'. destruct (SH b S') as (S1 & S2). split; [apply sides_columns; exact S1|]. split; [apply sides_columns; exact S2|].
    intros lb SPb Fb Eb. destruct (slice_line g a la SP F E) as (? & ? & ->). destruct (slice_line g b lb SPb Fb Eb) as (? & ? & ->).
    rewrite !map_length. assert (SUM : forall l, length l = length (filter is_side l) + length (filter (fun c => negb (is_side c)) l)).
    { induction l as [|c l IH]; [reflexivity|]. cbn. destruct (is_side c); cbn; lia. }
    pose proof (SUM (columns g (shape a))). pose proof (SUM (columns g (shape b))). rewrite (sides_columns g _ _ S1) in *. lia.
  - split; [intros interp; apply exclusive_line|]. split; [apply part_line_text|]. split; [apply staff_line_text|apply termination_line].
Qed.
Print Assumptions C35_partial.

(** What the writer does keeps to this, for up to a hundred parts: whatever slices, lyrics,
    chord symbols and dynamics come in whatever order, the grid knows of all of them in the end. *)
Theorem C35_writer_partial : forall counts recip os sl,
  length counts <= 100 ->
  In sl (fst (fold_left run_step os ([], nothing_known))) -> counted counts sl ->
  fits (transfer counts recip (snd (fold_left run_step os ([], nothing_known)))) sl.
Proof.
  intros counts recip os sl H I C. apply known_fits; [exact H|exact C|]. exact (run_known os ([], nothing_known) (fun sl X => match X with end) sl I).
Qed.
Print Assumptions C35_writer_partial.

(** Two parts, the second with two staves; lyrics, a chord symbol and a dynamic. *)
Definition c35_note : slice := mkSlice Notes 1
  [mkPart [mkStaff [Some (S_ "4c"); None] no_side] no_side; mkPart [mkStaff [Some (S_ "4e")] no_side; mkStaff [] no_side] no_side].
Definition c35_bar : slice := mkSlice Measures 0
  [mkPart [mkStaff [Some (S_ "=1")] no_side] no_side; mkPart [mkStaff [None] no_side; mkStaff [] no_side] no_side].
Definition c35_example : list step :=
  [NewSlice 0 c35_bar; NewSlice 1 c35_note; Lyrics 1 1 0 [S_ "a"; S_ "b"] None; HarmonyAt 1 0 (S_ "C"); DynamicsAt 1 1 (S_ "f")].
Example C35_nonvacuous :
  let st := fold_left run_step c35_example ([], nothing_known) in
  let g := transfer [1; 2] true (snd st) in
  exists bar note, fst st = [bar; note] /\ counted [1; 2] bar /\ counted [1; 2] note /\ same_staves note bar
  /\ sliceLine g note = Some [S_ "4"; S_ "."; S_ "4e"; S_ "a"; S_ "b"; S_ "f"; S_ "4c"; S_ "."; S_ "C"]
  /\ sliceLine g bar = Some [S_ "=1"; S_ "=1"; S_ "=1"; S_ "=1"; S_ "=1"; S_ "=1"; S_ "=1"; S_ "=1"]
  /\ exclusiveLine g (S_ "**kern") bar
     = [S_ "**recip"; S_ "**kern"; S_ "**kern"; S_ "**text"; S_ "**text"; S_ "**dynam"; S_ "**kern"; S_ "**harte"]
  /\ staffLine g bar = [S_ "*"; S_ "*staff3"; S_ "*staff2"; S_ "*staff2"; S_ "*staff2"; S_ "*staff2/3"; S_ "*staff1"; S_ "*"].
Proof.
  cbv zeta. do 2 eexists. split; [vm_compute; reflexivity|]. split; [|split].
  1,2: split; [cbn; lia|]; intros p; destruct p as [|[|[|p]]]; cbn; lia.
  do 4 (split; [vm_compute; reflexivity|]). vm_compute. reflexivity.
Qed.

(** ** C81 *)

Definition begins (c : ascii) (t : str) : Prop := exists r, t = c :: r.
(** The token is one for a line of that kind. *)
Definition of_kind (ty : slicetype) (t : str) : Prop :=
  match ty with
  | Notes | GraceNotes => ~ begins "*"%char t /\ ~ begins "!"%char t /\ ~ begins "="%char t /\ t <> []
  | Measures => begins "="%char t
  | Layouts | LocalComments => begins "!"%char t
  | _ => begins "*"%char t
  end.

(** The claim without restriction: if all tokens of a spined slice are of the kind of the
    slice, so are all of its line.  With a column for note lengths a line of layout comments
    gets the text 55 in it. *)
Definition c81_layout : slice := mkSlice Layouts 0 [mkPart [mkStaff [Some (S_ "!LO:N:smi")] no_side] no_side].
Theorem C81_refuted : exists g sl line, hasSpines (sl_type sl) = true
  /\ (forall c tok, content sl c = Some tok -> of_kind (sl_type sl) tok)
  /\ fits g sl /\ sliceLine g sl = Some line /\ In (S_ "55") line /\ ~ of_kind (sl_type sl) (S_ "55").
Proof.
  exists (transfer [1] true nothing_known), c81_layout. eexists. split; [reflexivity|]. split.
  - intros c tok. destruct c as [|p s v|p s|p s i|p|p|p]; cbn; try discriminate; destruct p as [|[|p]]; cbn; try discriminate;
      destruct s as [|[|s]]; cbn; try discriminate; try (destruct v as [|[|v]]; cbn; try discriminate); try (destruct i; discriminate).
    intros E. injection E as <-. eexists. reflexivity.
  - split.
    + apply known_fits; [cbn; lia| |].
      * split; [cbn; lia|]. intros p. destruct p as [|[|p]]; cbn; lia.
      * apply known_bare. reflexivity.
    + split; [vm_compute; reflexivity|]. split; [left; reflexivity|]. intros (r & X). discriminate.
Qed.
Print Assumptions C81_refuted.

Lemma recip_kind d : of_kind Notes (createRecipTokenFromDuration d).
Proof.
  assert (P : forall n r, of_kind Notes (show_pos n ++ r)).
  { intros n r. unfold show_pos. destruct (show_N_cons (Npos n)) as (c & t & -> & D).
    repeat split; try discriminate; intros (x & X); injection X as -> _; discriminate D. }
  assert (P0 : forall n, of_kind Notes (show_pos n)) by (intros n; rewrite <- (app_nil_r (show_pos n)); apply P).
  unfold createRecipTokenFromDuration. destruct (_ =? 0)%Z; [repeat split; try discriminate; intros (x & X); discriminate|].
  destruct (_ =? 1)%Z; [apply P0|]. destruct (_ =? 0)%Z; [destruct (_ =? 1)%Z|]; apply P.
Qed.

(** It holds for all slices but those of comments beside the notes, and for those of layout
    comments without the column for note lengths. *)
Theorem C81_partial : forall g sl line,
  hasSpines (sl_type sl) = true -> fits g sl -> sliceLine g sl = Some line ->
  sl_type sl <> LocalComments -> (sl_type sl = Layouts -> g_recip g = false) ->
  (forall c tok, content sl c = Some tok -> of_kind (sl_type sl) tok) ->
  Forall (of_kind (sl_type sl)) line.
Proof.
  intros g sl line SP F E NL LR K.
  assert (FT : sl_type sl = Measures -> forall other t, begins "="%char other -> first_text other (sl_parts sl) = Some t -> begins "="%char t).
  { intros M other t BO FT. unfold first_text in FT. destruct (sl_parts sl) as [|pt ps] eqn:EP; [discriminate|].
    destruct (pt_staves pt) as [|st sts] eqn:ES; [discriminate|]. destruct (st_voices st) as [|v vs] eqn:EV; injection FT as <-; [exact BO|].
    destruct v as [v|]; [|exact BO]. cbn. specialize (K (CVoice 0 0 0) v). rewrite M in K. apply K.
    cbn. unfold staff_at, part_at. rewrite EP. cbn. rewrite ES. cbn. rewrite EV. reflexivity. }
  destruct (filler sl) as [e0|] eqn:E0; [|unfold sliceLine in E; rewrite E0 in E; discriminate].
  assert (R0 : of_kind (sl_type sl) e0 \/ sl_parts sl = []).
  { unfold filler in E0. destruct (sl_type sl) eqn:T; cbn in SP, E0; try discriminate SP; try (exfalso; apply NL; reflexivity);
      try (injection E0 as <-; left; cbn; try (eexists; reflexivity); repeat split; try discriminate; intros (x & X); discriminate).
    destruct (sl_parts sl) as [|pt ps] eqn:EP; [right; reflexivity|]. left. cbn. apply (FT eq_refl (S_ "=YYYYYY") e0); [eexists; reflexivity|exact E0]. }
  assert (BODY : forall e, of_kind (sl_type sl) e \/ sl_parts sl = [] ->
    Forall (of_kind (sl_type sl)) (flat_map (part_tokens g e (hasSpines (sl_type sl))) (rev (indexed (sl_parts sl))))).
  { intros e [OK|NP]; [|rewrite NP; constructor]. rewrite SP, (rev_indexed no_part). apply Forall_forall. intros t I. apply in_flat_map in I.
    destruct I as (p & IP & I). apply in_down in IP. fold (part_at sl p) in I. rewrite part_line in I by assumption.
    apply in_map_iff in I. destruct I as (c & <- & _). destruct (content sl c) as [tok|] eqn:C; cbn; [exact (K c tok C)|exact OK]. }
  unfold sliceLine in E. rewrite E0 in E. destruct (g_recip g) eqn:R.
  - destruct (recip_column sl e0) as [(x, e)|] eqn:RC; [|discriminate]. destruct (recip_spined sl e0 x e SP RC) as (t & ->).
    injection E as <-. rewrite SP at 1. cbn [app].
    assert (OK : of_kind (sl_type sl) t /\ (of_kind (sl_type sl) e \/ sl_parts sl = [])).
    { unfold recip_column in RC. destruct (sl_type sl) eqn:T; cbn in SP, RC; try discriminate SP; try (exfalso; apply NL; reflexivity);
        try (specialize (LR eq_refl); discriminate LR);
        try (injection RC as <- <-; split; [|left]; eexists; reflexivity);
        try (injection RC as <- <-; split; [|left]; repeat split; try discriminate; intros (y & Y); discriminate).
      - injection RC as <- <-. split; [apply recip_kind|exact R0].
      - destruct (first_text _ (sl_parts sl)) as [t'|] eqn:FX; [|discriminate RC]. injection RC as <- <-.
        assert (B : begins "="%char t') by (apply (FT eq_refl (S_ "=XXXXX") t'); [eexists; reflexivity|exact FX]). split; [|left]; exact B. }
    constructor; [exact (proj1 OK)|]. apply BODY. exact (proj2 OK).
  - injection E as <-. cbn [app]. apply BODY. exact R0.
Qed.
Print Assumptions C81_partial.

(** A barline over two parts, with places left free. *)
Example C81_nonvacuous : hasSpines (sl_type c35_bar) = true /\ fits (transfer [1; 2] true nothing_known) c35_bar
  /\ (forall c tok, content c35_bar c = Some tok -> of_kind (sl_type c35_bar) tok)
  /\ sliceLine (transfer [1; 2] true nothing_known) c35_bar = Some [S_ "=1"; S_ "=1"; S_ "=1"; S_ "=1"].
Proof.
  split; [reflexivity|]. split; [|split; [|vm_compute; reflexivity]].
  - apply known_fits; [cbn; lia| |apply known_bare; reflexivity]. split; [cbn; lia|]. intros p. destruct p as [|[|[|p]]]; cbn; lia.
  - intros c tok. destruct c as [|p s v|p s|p s i|p|p|p]; cbn; try discriminate; destruct p as [|[|[|p]]]; cbn; try discriminate;
      destruct s as [|[|[|s]]]; cbn; try discriminate; try (destruct v as [|[|v]]; cbn; try discriminate); try (destruct i; discriminate).
    intros E. injection E as <-. eexists. reflexivity.
Qed.
