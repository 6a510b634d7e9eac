(** C109: the numbers of layers in exported MEI. *)
From Coq Require Import ZArith Lia.
From Verif Require Import PyStr PyStrProofs LayerNumModel.

Lemma layersFrom_cons next v vs : layersFrom next (v :: vs) = fst (layerOf next v) :: layersFrom (snd (layerOf next v)) vs.
Proof. cbn [layersFrom]. destruct (layerOf next v). reflexivity. Qed.
Lemma layersFrom_length : forall vs next, length (layersFrom next vs) = length vs.
Proof. induction vs as [|v vs IH]; intros next; [reflexivity|]. rewrite layersFrom_cons. cbn. f_equal. apply IH. Qed.
Definition numbered (v : voice) : Prop := exists z, v_id v = Num z.
Definition succ_num next v : (n (fst (layerOf next v)) + 1)%Z = snd (layerOf next v).
Proof. unfold layerOf. destruct (v_id v); reflexivity. Qed.
Lemma first_num next v : ~ numbered v -> n (fst (layerOf next v)) = next.
Proof. intros N. unfold layerOf, numbered in *. destruct (v_id v) eqn:E; try reflexivity. exfalso. eauto. Qed.

(** The number a layer gets: the number of its voice if it has one; otherwise the
    number after that of the layer before, or 1. *)
Lemma layersFrom_nth : forall vs next i v, nth_error vs i = Some v -> exists l, nth_error (layersFrom next vs) i = Some l /\
  (forall z, v_id v = Num z -> n l = z) /\
  (~ numbered v -> match i with 0 => n l = next | S j => forall l', nth_error (layersFrom next vs) j = Some l' -> n l = (n l' + 1)%Z end) /\
  label l = match v_label v with Some s => s | None => match v_id v with Name s => s | _ => [] end end.
Proof.
  induction vs as [|w vs IH]; intros next [|i] v E; try discriminate.
  - injection E as ->. rewrite layersFrom_cons. eexists. split; [reflexivity|]. split; [|split].
    + intros z Z. unfold layerOf. rewrite Z. reflexivity.
    + apply first_num.
    + unfold layerOf. destruct (v_id v); reflexivity.
  - cbn in E. rewrite layersFrom_cons. destruct (IH (snd (layerOf next w)) i v E) as (l & L & A & B & C). exists l. split; [exact L|]. split; [exact A|]. split; [|exact C].
    intros N. specialize (B N). destruct i as [|i]; cbn [nth_error].
    + intros l' Q. injection Q as <-. rewrite succ_num. exact B.
    + intros l' Q. apply B. exact Q.
Qed.
Theorem C109_numbers : forall vs i v, nth_error vs i = Some v -> exists l, nth_error (layers vs) i = Some l /\
  (forall z, v_id v = Num z -> n l = z) /\
  (~ numbered v -> match i with 0 => n l = 1%Z | S j => forall l', nth_error (layers vs) j = Some l' -> n l = (n l' + 1)%Z end) /\
  label l = match v_label v with Some s => s | None => match v_id v with Name s => s | _ => [] end end.
Proof. intros vs i v. apply layersFrom_nth. Qed.
Print Assumptions C109_numbers.
Example C109_numbers_nonvacuous :
  layers [mkV Mem None; mkV (Num 5) None; mkV (Name (S_ "alto")) None; mkV Other (Some (S_ "low"))] =
  [mkLa 1 []; mkLa 5 []; mkLa 6 (S_ "alto"); mkLa 7 (S_ "low")].
Proof. reflexivity. Qed.

(** If the numbers of voices leave room for the voices before them, the numbers of
    the layers go up, so that no two are the same. *)
Definition roomy (vs : list voice) : Prop :=
  (forall j v z, nth_error vs j = Some v -> v_id v = Num z -> (Z.of_nat j + 1 <= z)%Z) /\
  (forall i j v w y z, i < j -> nth_error vs i = Some v -> nth_error vs j = Some w -> v_id v = Num y -> v_id w = Num z -> (y + Z.of_nat (j - i) <= z)%Z).
Lemma layers_up next : forall vs,
  (forall j v z, nth_error vs j = Some v -> v_id v = Num z -> (next + Z.of_nat j <= z)%Z) ->
  (forall i j v w y z, i < j -> nth_error vs i = Some v -> nth_error vs j = Some w -> v_id v = Num y -> v_id w = Num z -> (y + Z.of_nat (j - i) <= z)%Z) ->
  forall i l, nth_error (layersFrom next vs) i = Some l -> (next <= n l)%Z /\ forall j l', i < j -> nth_error (layersFrom next vs) j = Some l' -> (n l < n l')%Z.
Proof.
  intros vs. revert next. induction vs as [|v vs IH]; intros next H1 H2 i l E; [destruct i; discriminate|].
  rewrite layersFrom_cons in E |- *. pose proof (succ_num next v) as SN. set (l0 := fst (layerOf next v)) in *. set (next' := snd (layerOf next v)) in *.
  assert (G1 : (next <= n l0)%Z).
  { unfold l0, layerOf. destruct (v_id v) eqn:Q; cbn; try lia. specialize (H1 0 v z eq_refl Q). lia. }
  assert (G2 : forall j w z, nth_error vs j = Some w -> v_id w = Num z -> (next' + Z.of_nat j <= z)%Z).
  { intros j w z W Q. unfold next', layerOf. destruct (v_id v) eqn:V; cbn.
    - pose proof (H2 0 (S j) v w z0 z ltac:(lia) eq_refl W V Q). lia.
    - pose proof (H1 (S j) w z W Q). lia.
    - pose proof (H1 (S j) w z W Q). lia.
    - pose proof (H1 (S j) w z W Q). lia. }
  assert (G3 : forall i j v w y z, i < j -> nth_error vs i = Some v -> nth_error vs j = Some w -> v_id v = Num y -> v_id w = Num z -> (y + Z.of_nat (j - i) <= z)%Z).
  { intros a b u w y z L A B. exact (H2 (S a) (S b) u w y z ltac:(lia) A B). }
  specialize (IH next' G2 G3). destruct i as [|i]; cbn in E.
  - injection E as <-. split; [exact G1|]. intros [|j] l' L Q; [lia|]. cbn in Q. destruct (IH j l' Q). lia.
  - destruct (IH i l E) as [A B]. split; [lia|]. intros [|j] l' L Q; [lia|]. cbn in Q. apply (B j); [lia|exact Q].
Qed.
Theorem C109_unique_partial : forall vs, roomy vs ->
  forall i j l l', i < j -> nth_error (layers vs) i = Some l -> nth_error (layers vs) j = Some l' -> (n l < n l')%Z.
Proof.
  intros vs [R1 R2] i j l l' L A B. eapply (layers_up 1 vs); try eassumption.
  intros k v z K V. specialize (R1 k v z K V). lia.
Qed.
Print Assumptions C109_unique_partial.
Example C109_unique_nonvacuous : roomy [mkV Mem None; mkV (Num 3) None; mkV Mem None; mkV (Num 5) None].
Proof.
  split.
  - intros [|[|[|[|j]]]] v z E Q; cbn in E; try (injection E as <-; cbn in Q; try discriminate; injection Q as <-; lia). destruct j; discriminate.
  - intros i j v w y z L A B V W. destruct i as [|[|[|[|i]]]]; cbn in A; try (injection A as <-; cbn in V; try discriminate; injection V as <-); try (destruct i; discriminate);
      destruct j as [|[|[|[|j]]]]; try lia; cbn in B; try (injection B as <-; cbn in W; try discriminate; injection W as <-; lia); destruct j; discriminate.
Qed.
(** A voice without a number before one with the number 1: two layers have the number 1. *)
Theorem C109_unique_refuted : exists vs, vs = [mkV (Name (S_ "alto")) None; mkV (Num 1) None] /\ map n (layers vs) = [1; 1]%Z.
Proof. eexists. split; reflexivity. Qed.
Print Assumptions C109_unique_refuted.

(** Voices that were read from MEI are numbered anew, and their numbers become labels. *)
Theorem C109_reread : forall vs,
  layers (map readLayer (layers vs)) = map (fun x => mkLa (Z.of_nat (fst x) + 1) (show_Z (n (snd x)))) (combine (seq 0 (length vs)) (layers vs)).
Proof.
  intros vs. assert (K : forall ls k, layersFrom (Z.of_nat k + 1) (map readLayer ls) = map (fun x => mkLa (Z.of_nat (fst x) + 1) (show_Z (n (snd x)))) (combine (seq k (length ls)) ls)).
  { induction ls as [|l ls IH]; intros k; [reflexivity|]. cbn [map length seq combine layersFrom fst snd]. unfold layerOf. cbn [v_id v_label readLayer].
    f_equal. rewrite <- (IH (S k)). f_equal. lia. }
  rewrite <- (layersFrom_length vs 1). apply (K (layers vs) 0).
Qed.
Print Assumptions C109_reread.
(** So a number that was chosen is lost on the way through MEI and back. *)
Theorem C109_reread_refuted : exists vs, vs = [mkV (Num 3) None] /\ map n (layers vs) = [3%Z] /\
  map n (layers (map readLayer (layers vs))) = [1%Z] /\ map label (layers (map readLayer (layers vs))) = [S_ "3"].
Proof. eexists. split; [reflexivity|]. vm_compute. auto. Qed.
Print Assumptions C109_reread_refuted.
