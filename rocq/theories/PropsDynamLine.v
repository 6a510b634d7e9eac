(** C140: which staff the dynamics of a line of a Humdrum file are given to. *)
From Coq Require Import Lia ZArith.
From Verif Require Import DateModel PyStr PyStrProofs LayoutModel BarModel DynamModel.

(** ** Columns *)
Fixpoint dynam_at (i : nat) (cs : list column) : list nat :=
  match cs with
  | [] => []
  | Dynam _ _ :: cs' => i :: dynam_at (S i) cs'
  | _ :: cs' => dynam_at (S i) cs'
  end.
Lemma dynam_at_app i a b : dynam_at i (a ++ b) = dynam_at i a ++ dynam_at (i + length a) b.
Proof.
  revert i. induction a as [|c a IH]; intro i; cbn [app dynam_at length]; [rewrite Nat.add_0_r; reflexivity|].
  replace (i + S (length a)) with (S i + length a) by lia. destruct c; rewrite IH; reflexivity.
Qed.
Lemma dynam_at_bounds i cs x : In x (dynam_at i cs) -> i <= x < i + length cs.
Proof.
  revert i. induction cs as [|c cs IH]; intros i I; [destruct I|]. cbn [dynam_at length] in *.
  destruct c; cbn [In] in I; try (specialize (IH _ I); lia). destruct I as [<-|I]; [lia|]. specialize (IH _ I). lia.
Qed.
Lemma kern_dynam_at i (gs : list bool) : dynam_at i (map (fun _ => Kern) gs) = [].
Proof. revert i. induction gs as [|g gs IH]; intro i; [reflexivity|]. cbn. apply IH. Qed.

(** Columns that have been looked at give nothing. *)
Lemma all_done g act before done i cs : (forall x, In x (dynam_at i cs) -> In x done) ->
  columns_right g act before done i cs = ([], done).
Proof.
  revert act before i. induction cs as [|c cs IH]; intros act before i H; [reflexivity|]. cbn [columns_right dynam_at] in *.
  destruct c.
  - destruct g; [apply IH, H|reflexivity].
  - apply IH, H.
  - destruct act; [|apply IH; intros x X; apply H; now right].
    assert (E : existsb (Nat.eqb i) done = true). { apply existsb_exists. exists i. split; [apply H; now left|apply Nat.eqb_refl]. }
    rewrite E. reflexivity.
  - apply IH, H.
Qed.

(** The columns of a spine that are no notes: at most one of them for dynamics. *)
Definition side_column (c : column) : Prop := match c with Dynam _ _ | Other => True | _ => False end.
Definition good_spine (sp : spine) : Prop :=
  sp_layers sp <> [] /\ Forall side_column (sp_sides sp) /\ length (dynam_at 0 (sp_sides sp)) <= 1.
(** The dynamics they stand for. *)
Fixpoint own (i : nat) (cs : list column) : list (nat * str) :=
  match cs with
  | [] => []
  | Dynam text sets :: cs' =>
      match fst (read_token [] text sets) with Some v => (i, v) :: own (S i) cs' | None => own (S i) cs' end
  | _ :: cs' => own (S i) cs'
  end.

Lemma dynam_at_length i j cs : length (dynam_at i cs) = length (dynam_at j cs).
Proof. revert i j. induction cs as [|c cs IH]; intros i j; [reflexivity|]. destruct c; cbn; auto using f_equal. Qed.
Lemma own_nil i cs : dynam_at i cs = [] -> own i cs = [].
Proof. revert i. induction cs as [|c cs IH]; intros i H; [reflexivity|]. destruct c; cbn in *; auto; discriminate. Qed.

Lemma sides_read g done i sides rest : Forall side_column sides -> length (dynam_at i sides) <= 1 ->
  (forall x, In x (dynam_at i sides) -> ~ In x done) ->
  (forall x, In x (dynam_at (i + length sides) rest) -> In x done) ->
  columns_right g true [] done i (sides ++ rest) = (own i sides, dynam_at i sides ++ done).
Proof.
  revert i. induction sides as [|c sides IH]; intros i S L N R.
  - cbn [app own dynam_at]. apply all_done. cbn [length] in R. rewrite Nat.add_0_r in R. exact R.
  - apply Forall_cons_iff in S as [Sc S]. cbn [length] in R. replace (i + Datatypes.S (length sides)) with (Datatypes.S i + length sides) in R by lia.
    destruct c; try destruct Sc.
    + cbn [app columns_right own dynam_at] in *.
      assert (E : existsb (Nat.eqb i) done = false).
      { destruct (existsb (Nat.eqb i) done) eqn:E; [|reflexivity]. apply existsb_exists in E as (x & X & E). apply Nat.eqb_eq in E. subst x.
        exfalso. exact (N i (or_introl eq_refl) X). }
      rewrite E. cbn [length] in L. assert (Z : dynam_at (Datatypes.S i) sides = []) by (destruct (dynam_at (Datatypes.S i) sides); [reflexivity|cbn in L; lia]).
      destruct (read_token [] text sets) as [d b]. rewrite all_done.
      * rewrite Z, (own_nil _ _ Z). cbn [fst]. destruct d; reflexivity.
      * intros x X. rewrite dynam_at_app, Z in X. right. apply R, X.
    + cbn [app columns_right own dynam_at] in *. apply IH; assumption.
Qed.

Lemma skip_kerns g before done i (gs : list bool) cs : g = true ->
  columns_right g true before done i (map (fun _ => Kern) gs ++ cs) = columns_right g true before done (i + length gs) cs.
Proof.
  intros ->. revert i. induction gs as [|x gs IH]; intro i; [cbn; rewrite Nat.add_0_r; reflexivity|].
  cbn [map app columns_right length]. rewrite IH. f_equal. lia.
Qed.

(** ** The layers of a spine *)
Lemma skipn_at {A} (pre : list A) x l : skipn (S (length pre)) (pre ++ x :: l) = l.
Proof. induction pre as [|y pre IH]; [reflexivity|]. exact IH. Qed.

Lemma layers_done staff sides rest gs : forall pre done,
  (forall x, In x (dynam_at (length pre + length gs) (sides ++ rest)) -> In x done) ->
  read_layers (pre ++ map (fun _ => Kern) gs ++ sides ++ rest) staff (length pre) gs done = ([], done).
Proof.
  induction gs as [|g gs IH]; intros pre done H; [reflexivity|].
  cbn [read_layers map app]. rewrite skipn_at. rewrite all_done.
  - replace (pre ++ Kern :: map (fun _ => Kern) gs ++ sides ++ rest) with ((pre ++ [Kern]) ++ map (fun _ => Kern) gs ++ sides ++ rest) by (rewrite <- app_assoc; reflexivity).
    replace (S (length pre)) with (length (pre ++ [Kern])) by (rewrite app_length; cbn; lia). rewrite IH; [reflexivity|].
    intros x X. apply H. rewrite app_length in X. cbn [length] in *. replace (length pre + S (length gs)) with (length pre + 1 + length gs) by lia. exact X.
  - intros x X. rewrite dynam_at_app, kern_dynam_at, map_length in X. apply H. cbn [length]. replace (length pre + S (length gs)) with (S (length pre) + length gs) by lia. exact X.
Qed.
Lemma layers_read staff sides rest gs : gs <> [] -> Forall side_column sides -> length (dynam_at 0 sides) <= 1 -> forall pre done,
  (forall x, In x (dynam_at (length pre + length gs) sides) -> ~ In x done) ->
  (forall x, In x (dynam_at (length pre + length gs + length sides) rest) -> In x done) ->
  read_layers (pre ++ map (fun _ => Kern) gs ++ sides ++ rest) staff (length pre) gs done
  = (map (fun '(j, v) => (staff, j, v)) (own (length pre + length gs) sides), dynam_at (length pre + length gs) sides ++ done).
Proof.
  intros Ne S L. induction gs as [|g gs IH]; [congruence|]. intros pre done N R.
  cbn [read_layers map app]. rewrite skipn_at.
  assert (Shape : pre ++ Kern :: map (fun _ => Kern) gs ++ sides ++ rest = (pre ++ [Kern]) ++ map (fun _ => Kern) gs ++ sides ++ rest) by (rewrite <- app_assoc; reflexivity).
  assert (Len : Datatypes.S (length pre) = length (pre ++ [Kern])) by (rewrite app_length; cbn; lia).
  assert (Base : length pre + length (g :: gs) = length (pre ++ [Kern]) + length gs) by (rewrite app_length; cbn; lia).
  rewrite Base in *. rewrite Shape.
  destruct (orb g (match gs with [] => true | _ => false end)) eqn:Q.
  - (* this layer reads the dynamics *)
    assert (Here : columns_right g true [] done (Datatypes.S (length pre)) (map (fun _ => Kern) gs ++ sides ++ rest)
                   = (own (length (pre ++ [Kern]) + length gs) sides, dynam_at (length (pre ++ [Kern]) + length gs) sides ++ done)).
    { rewrite Len. destruct g.
      - rewrite skip_kerns by reflexivity. apply sides_read; [exact S|rewrite (dynam_at_length _ 0); exact L|exact N|exact R].
      - destruct gs; [|discriminate]. cbn [map app length] in *. rewrite Nat.add_0_r in *. apply sides_read; [exact S|rewrite (dynam_at_length _ 0); exact L|exact N|exact R]. }
    rewrite Here. rewrite Len. rewrite layers_done; [rewrite app_nil_r; reflexivity|].
    intros x X. rewrite dynam_at_app in X. apply in_app_or in X as [X|X]; apply in_or_app; [left; exact X|right; apply R, X].
  - apply orb_false_iff in Q as [-> Q]. destruct gs as [|g' gs]; [discriminate|].
    cbn [map app columns_right]. rewrite Len.
    change (Kern :: map (fun _ => Kern) gs ++ sides ++ rest) with (map (fun _ : bool => Kern) (g' :: gs) ++ sides ++ rest).
    rewrite (IH ltac:(discriminate) (pre ++ [Kern]) done N R). reflexivity.
Qed.

(** ** The spines of a line *)
Definition spine_length (sp : spine) : nat := length (sp_layers sp) + length (sp_sides sp).
(** The dynamics of a line: those in the columns of each spine are given to its
    staff; the staves from the right. *)
Fixpoint line_dynamics (staff i : nat) (sps : list spine) : list (nat * nat * str) :=
  match sps with
  | [] => []
  | sp :: sps' =>
      line_dynamics (S staff) (i + spine_length sp) sps'
      ++ map (fun '(j, v) => (staff, j, v)) (own (i + length (sp_layers sp)) (sp_sides sp))
  end.

Lemma spine_columns_length sp : length (spine_columns sp) = spine_length sp.
Proof. unfold spine_columns, spine_length. rewrite app_length, map_length. reflexivity. Qed.

Lemma spines_read sps : Forall good_spine sps -> forall pre staff,
  exists done, read_spines (pre ++ line_columns sps) staff (length pre) sps [] = (line_dynamics staff (length pre) sps, done)
    /\ forall x, In x done <-> In x (dynam_at (length pre) (line_columns sps)).
Proof.
  induction sps as [|sp sps IH]; intros G pre staff; [exists []; split; [reflexivity|reflexivity]|].
  apply Forall_cons_iff in G as [(Gl & Gs & Gn) G].
  destruct (IH G (pre ++ spine_columns sp) (S staff)) as (done & E & D).
  rewrite app_length, spine_columns_length in E, D. rewrite <- app_assoc in E.
  change (line_columns (sp :: sps)) with (spine_columns sp ++ line_columns sps).
  cbn [read_spines line_dynamics]. rewrite spine_columns_length, E.
  assert (B : length pre + spine_length sp = length pre + length (sp_layers sp) + length (sp_sides sp)) by (unfold spine_length; lia).
  exists (dynam_at (length pre + length (sp_layers sp)) (sp_sides sp) ++ done). split.
  - unfold spine_columns. rewrite <- !app_assoc.
    rewrite (layers_read staff (sp_sides sp) (line_columns sps) (sp_layers sp) Gl Gs Gn pre done).
    + reflexivity.
    + intros x X I. apply D in I. apply dynam_at_bounds in I. apply dynam_at_bounds in X. lia.
    + intros x X. apply D. rewrite B. exact X.
  - intro x. unfold spine_columns. rewrite <- app_assoc, dynam_at_app, kern_dynam_at, map_length. cbn [app]. rewrite dynam_at_app.
    rewrite !in_app_iff, D, B. reflexivity.
Qed.

(** ** C140 *)

(** Every dynamic of a line is read once, for the staff directly left of its
    column, whether or not notes of the line are grace notes and whatever number
    of voices the staves have. *)
Theorem C140_staff_of_dynamics_partial : forall sps, Forall good_spine sps -> read_line sps = line_dynamics 0 0 sps.
Proof.
  intros sps G. unfold read_line. destruct (spines_read sps G [] 0) as (done & E & _). cbn [app length] in E. rewrite E. reflexivity.
Qed.
Print Assumptions C140_staff_of_dynamics_partial.

Example C140_nonvacuous :
  let sps := [ mkSpine [true; false] [Other; Dynam (S_ "f") []]; mkSpine [false] [];
               mkSpine [false; true] [Dynam (S_ "p <") []; Other] ] in
  Forall good_spine sps /\ read_line sps = [(2, 7, S_ "p"); (0, 3, S_ "f")].
Proof.
  cbv zeta. split; [|vm_compute; reflexivity].
  repeat (constructor; [split; [discriminate|split; [repeat constructor|cbn; lia]]|]). constructor.
Qed.

(** With two columns for dynamics beside one staff, a dynamic of the first is read
    again for the second when there is none. *)
Theorem C140_two_columns_refuted :
  exists sps, sps = [mkSpine [false] [Dynam (S_ "ff") []; Dynam (S_ "<") []]] /\ read_line sps = [(0, 1, S_ "ff"); (0, 2, S_ "ff")].
Proof. eexists. split; [reflexivity|]. vm_compute. reflexivity. Qed.
Print Assumptions C140_two_columns_refuted.
