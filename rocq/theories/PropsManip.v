(** C34: the lines of splits and merges between two lines of the exported file. *)
From Coq Require Import Lia Sorting.Sorted.
From Verif Require Import PyStr LayoutModel SpineModel ManipModel ManipProofs.

(** C34 (part): whatever the parts, staves, side columns and voices, reading the lines put
    between two lines of the file by the rules of splits and merges turns the spines of the
    line before into those of the line after: every staff gets the voices it needs out of its
    own spines, and every side column stays itself.  Held to [well_placed]: in the parts
    written behind the first two neighbouring staves that both lose voices, no two neighbours
    lose voices, and none gains voices unless some staff of the line gains voices in several
    steps. *)
Theorem C34_partial : forall (A : Type) (voice : nat -> A) (side : nat -> nat -> A) l, in_writing_order l -> well_placed l ->
  exists least, forall fuel, least <= fuel ->
    reads_lines (map line_tokens (manipulator_lines fuel l))
      (open_spines voice side 0 (map (fun x => (Nat.max (pr_before x) 1, pr_sides x)) l))
      (open_spines voice side 0 (map (fun x => (Nat.max (pr_after x) 1, pr_sides x)) l)).
Proof. intros A voice side l W P. exact (manipulators_spines voice side l W P). Qed.
Print Assumptions C34_partial.

(** C34 (part): the same, read by the importer. *)
Theorem C34_importer_partial : forall (voice : nat -> str) (side : nat -> nat -> str) l, in_writing_order l -> well_placed l ->
  exists least, forall fuel, least <= fuel -> forall line st st',
    s_type st = open_spines voice side 0 (map (fun x => (Nat.max (pr_before x) 1, pr_sides x)) l) ->
    import_lines line (map line_tokens (manipulator_lines fuel l)) st = Some st' ->
    s_type st' = open_spines voice side 0 (map (fun x => (Nat.max (pr_after x) 1, pr_sides x)) l).
Proof.
  intros voice side l W P. destruct (manipulators_spines voice side l W P) as (least & H). exists least. intros fuel LF line st st' T.
  apply reads_lines_importer. rewrite T. exact (H fuel LF).
Qed.
Print Assumptions C34_importer_partial.

(** C34 fails in general: of four parts that all lose their second voice, the last two are
    merged into one spine by the first line; and a part that gains a voice behind two that
    lose one does so in the first line while the second line has no column for it.  The
    importer rejects both files. *)
Definition four_parts : list pair := [mkPair 3 0 2 1; mkPair 2 0 2 1; mkPair 1 0 2 1; mkPair 0 0 2 1].
Definition lose_and_gain : list pair := [mkPair 2 0 2 1; mkPair 1 0 2 1; mkPair 0 0 1 2].
Definition no_tracks : tracks := mkTracks [] [].
Definition halves (k : nat) : list str := [S_ "(" ++ show_N (N.of_nat k) ++ S_ ")a"; S_ "(" ++ show_N (N.of_nat k) ++ S_ ")b"].
Theorem C34_refuted :
  (exists l, in_writing_order l /\ Forall (fun x => pr_before x = 2 /\ pr_after x = 1) l
     /\ forall fuel, 5 <= fuel -> map line_tokens (manipulator_lines fuel l) = [[S_ "*v"; S_ "*v"; S_ "*"; S_ "*"; S_ "*v"; S_ "*v"; S_ "*v"; S_ "*v"]; [S_ "*"; S_ "*v"; S_ "*v"; S_ "*"; S_ "*"]]
        /\ import_lines 9 (map line_tokens (manipulator_lines fuel l))
             (mkS (repeat (S_ "**kern") 8) (halves 1 ++ halves 2 ++ halves 3 ++ halves 4) no_tracks) = None)
  /\ (exists l, in_writing_order l
     /\ forall fuel, 5 <= fuel -> map line_tokens (manipulator_lines fuel l) = [[S_ "*v"; S_ "*v"; S_ "*"; S_ "*"; S_ "*^"]; [S_ "*"; S_ "*v"; S_ "*v"; S_ "*"]]
        /\ import_lines 9 (map line_tokens (manipulator_lines fuel l))
             (mkS (repeat (S_ "**kern") 5) (halves 1 ++ halves 2 ++ [S_ "3"]) no_tracks) = None).
Proof.
  split.
  - exists four_parts. split; [repeat constructor|]. split; [repeat constructor|]. intros fuel L. do 5 (destruct fuel as [|fuel]; [exfalso; lia|]).
    destruct fuel; split; vm_compute; reflexivity.
  - exists lose_and_gain. split; [repeat constructor|]. intros fuel L. do 5 (destruct fuel as [|fuel]; [exfalso; lia|]).
    destruct fuel; split; vm_compute; reflexivity.
Qed.
Print Assumptions C34_refuted.

(** Three staves that lose voices, with a column of verses, before one that gains three. *)
Definition example_staves : list pair := [mkPair 2 0 3 1; mkPair 1 1 2 1; mkPair 1 0 3 2; mkPair 0 0 1 4].
Example C34_nonvacuous :
  in_writing_order example_staves /\ well_placed example_staves
  /\ map line_tokens (manipulator_lines 9 example_staves)
     = [[S_ "*"; S_ "*"; S_ "*"; S_ "*"; S_ "*"; S_ "*"; S_ "*"; S_ "*"; S_ "*"; S_ "*^"];
        [S_ "*"; S_ "*"; S_ "*"; S_ "*"; S_ "*"; S_ "*"; S_ "*"; S_ "*"; S_ "*"; S_ "*"; S_ "*^"];
        [S_ "*v"; S_ "*v"; S_ "*v"; S_ "*"; S_ "*"; S_ "*"; S_ "*"; S_ "*"; S_ "*"; S_ "*"; S_ "*"; S_ "*^"];
        [S_ "*"; S_ "*v"; S_ "*v"; S_ "*"; S_ "*"; S_ "*"; S_ "*"; S_ "*"; S_ "*"; S_ "*"; S_ "*"];
        [S_ "*"; S_ "*"; S_ "*"; S_ "*"; S_ "*v"; S_ "*v"; S_ "*"; S_ "*"; S_ "*"; S_ "*"]]
  /\ well_placed [mkPair 1 0 3 2; mkPair 1 0 2 1; mkPair 1 2 4 2] /\ ~ well_placed four_parts.
Proof.
  split; [repeat constructor|]. split; [|split; [vm_compute; reflexivity|split]].
  - intros pre a b post E MA MB _. split.
    + intros u x y w E2 (M1 & M2). assert (I : In x (filter (fun x => pr_part x <? pr_part b) post)) by (rewrite E2; apply in_or_app; right; left; reflexivity).
      assert (I2 : In y (filter (fun x => pr_part x <? pr_part b) post)) by (rewrite E2; apply in_or_app; right; right; left; reflexivity).
      destruct pre as [|p1 [|p2 [|p3 [|p4 pre]]]]; cbn in E.
      * injection E as <- <- <-. vm_compute in I, I2. destruct I as [<-|[]]. unfold merges, after, before, one_up in M1. cbn in M1. lia.
      * injection E as <- <- <- <-. vm_compute in I, I2. destruct I as [<-|[]]. unfold merges, after, before, one_up in M1. cbn in M1. lia.
      * injection E as <- <- <- <- <-. vm_compute in I. contradiction.
      * apply (f_equal (@length pair)) in E. cbn in E. lia.
      * apply (f_equal (@length pair)) in E. cbn in E. rewrite app_length in E. cbn in E. lia.
    + left. unfold example_staves. apply Exists_exists. exists (mkPair 0 0 1 4). split; [cbn; tauto|]. unfold grows_in_steps, before, after, one_up. cbn. lia.
  - intros pre a b post E MA MB _. assert (Z : filter (fun x => pr_part x <? pr_part b) post = []).
    { destruct pre as [|p1 [|p2 [|p3 pre]]]; cbn in E; [injection E as <- <- <-|injection E as <- <- <- <-| |]; try reflexivity; apply (f_equal (@length pair)) in E; cbn in E; rewrite ?app_length in E; cbn in E; lia. }
    rewrite Z. split; [intros u x y w E2; destruct u; discriminate|]. right. intros x I L. exfalso. assert (I2 : In x []) by (rewrite <- Z; apply filter_In; split; [exact I|apply Nat.ltb_lt; exact L]). exact I2.
  - intros W. destruct (W [] (mkPair 3 0 2 1) (mkPair 2 0 2 1) [mkPair 1 0 2 1; mkPair 0 0 2 1] eq_refl) as (N & _).
    + unfold merges, after, before, one_up. cbn. lia.
    + unfold merges, after, before, one_up. cbn. lia.
    + intros u x y w E. destruct u as [|? [|? ?]]; discriminate.
    + apply (N [] (mkPair 1 0 2 1) (mkPair 0 0 2 1) [] eq_refl). unfold merges, after, before, one_up. cbn. lia.
Qed.
