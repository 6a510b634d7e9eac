(** Property theorem C56: beams. *)
From Coq Require Import Lia.
From Verif Require Import PyStr PyStrProofs BeamModel BeamProofs.

(** C56, letters: each note's letters say how many beams start, stop and hook. *)
Theorem C56_letters : forall bs,
  count_char "L" (getHumdrumBeamString bs) = length (filter (fun b => match b with BStart => true | _ => false end) bs) /\
  count_char "J" (getHumdrumBeamString bs) = length (filter (fun b => match b with BStop => true | _ => false end) bs) /\
  count_char "k" (getHumdrumBeamString bs) = length (filter (fun b => match b with BPartialLeft => true | _ => false end) bs) /\
  count_char "K" (getHumdrumBeamString bs) = length (filter (fun b => match b with BPartialRight => true | _ => false end) bs) /\
  Forall (fun c => In c ["L"; "J"; "k"; "K"]%char) (getHumdrumBeamString bs).
Proof.
  intros bs. destruct (letters bs) as (A & B & C & D).
  assert (F : forall p, count_if p bs = length (filter p bs)).
  { intros p. induction bs as [|b bs' IH]; [reflexivity|]. cbn.
    rewrite IH by apply letters. destruct (p b); reflexivity. }
  rewrite A, B, C, D, !F. repeat (split; [reflexivity|]).
  unfold getHumdrumBeamString, rep. rewrite !Forall_app.
  repeat split; apply Forall_forall; intros c Hc; apply repeat_spec in Hc; subst c; cbn; tauto.
Qed.
Print Assumptions C56_letters.

(** C56, balance: over any run of notes whose beams fit together level by level and
    are all closed at the end, as many beam starts are written as beam ends. *)
Theorem C56_balance : forall notes fin,
  run_notes [] notes = Some fin -> open_levels fin = 0 ->
  count_char "L" (concat (map getHumdrumBeamString notes))
  = count_char "J" (concat (map getHumdrumBeamString notes)).
Proof.
  assert (G : forall notes os fin, run_notes os notes = Some fin ->
    open_levels os + count_char "L" (concat (map getHumdrumBeamString notes))
    = open_levels fin + count_char "J" (concat (map getHumdrumBeamString notes))).
  { induction notes as [|n notes IH]; intros os fin H; cbn [run_notes map concat] in *.
    - injection H as <-. reflexivity.
    - destruct (note_step os n) as [os1|] eqn:E; [|discriminate]. specialize (IH _ _ H).
      apply note_step_open in E. rewrite !count_char_app.
      destruct (letters n) as (L & J & _). rewrite L, J. lia. }
  intros notes fin H Z0. specialize (G notes [] fin H). cbn in G. rewrite Z0 in G. exact G.
Qed.
Print Assumptions C56_balance.

(** C56, reading: for every layer, with any texts.  [f] is the number of 'L's minus
    the number of 'J's of each ordinary note (or of each grace note), [opened f xs i]
    its sum over the items up to the i-th.  When the sums never go below zero and end
    at zero, an item is in a beam exactly when a beam is open after it or before it,
    and two items are in the same beam exactly when a beam stays open from the one to
    the other.  Otherwise no item is in a beam.  Ordinary and grace notes are counted
    separately. *)
Theorem C56_reading : forall xs, xs <> [] ->
  exists nums gnums, analyzeLayerBeams xs = Some (nums, gnums) /\
  Forall (fun p : (item -> Z) * list nat => let (f, ns) := p in
    length ns = length xs /\
    (balanced f xs ->
      (forall i, i < length xs ->
         (nth i ns 0 = 0 <-> opened f xs i = 0%Z /\ (i = 0 \/ opened f xs (i - 1) = 0%Z))) /\
      (forall i j, i < j -> j < length xs -> nth i ns 0 <> 0 ->
         (nth i ns 0 = nth j ns 0 <-> forall k, i <= k < j -> opened f xs k <> 0%Z))) /\
    (~ balanced f xs -> ns = repeat 0 (length xs)))
  [(plain_net, nums); (grace_net, gnums)].
Proof.
  intros xs Hn. do 2 eexists. split; [apply analyze_sums, Hn|].
  assert (G : forall f, let ns := finish (negs (sums 0 f xs)) (sums 0 f xs) in
    length ns = length xs /\
    (balanced f xs ->
      (forall i, i < length xs ->
         (nth i ns 0 = 0 <-> opened f xs i = 0%Z /\ (i = 0 \/ opened f xs (i - 1) = 0%Z))) /\
      (forall i j, i < j -> j < length xs -> nth i ns 0 <> 0 ->
         (nth i ns 0 = nth j ns 0 <-> forall k, i <= k < j -> opened f xs k <> 0%Z))) /\
    (~ balanced f xs -> ns = repeat 0 (length xs))).
  { intros f ns. split; [|split].
    - unfold ns, finish. destruct (negs (sums 0 f xs) || _); rewrite ?map_length, number_length; apply sums_length.
    - intros B. exact (proj2 (balanced_numbers f xs Hn B)).
    - intros B. apply finish_unbalanced; assumption. }
  constructor; [apply G|]. constructor; [apply G|constructor].
Qed.
Print Assumptions C56_reading.

(** A layer written from notes with beams; [None] for anything that is not an
    ordinary note (grace notes, barlines, comments ...). *)
Definition written (x : item) (n : option (list beam)) : Prop :=
  match n with
  | Some bs => exists a z, no_beam_letters a /\ no_beam_letters z /\
                           x = Plain (a ++ getHumdrumBeamString bs ++ z)
  | None => match x with Plain _ => False | _ => True end
  end.
Definition notes_of (ns : list (option (list beam))) : list (list beam) :=
  flat_map (fun n => match n with Some bs => [bs] | None => [] end) ns.
(** How many beam levels are open after the i-th item. *)
Definition open_after (ns : list (option (list beam))) (i : nat) : nat :=
  match run_notes [] (notes_of (firstn (S i) ns)) with Some os => open_levels os | None => 0 end.

Lemma run_app a : forall os b, run_notes os (a ++ b) =
  match run_notes os a with Some os' => run_notes os' b | None => None end.
Proof.
  induction a as [|x a IH]; intros os b; [reflexivity|]. cbn.
  destruct (note_step os x); [apply IH|reflexivity].
Qed.

Lemma total_run xs ns : Forall2 written xs ns -> forall os fin,
  run_notes os (notes_of ns) = Some fin ->
  total plain_net xs = (Z.of_nat (open_levels fin) - Z.of_nat (open_levels os))%Z.
Proof.
  induction 1 as [|x n xs ns W _ IH]; intros os fin H; cbn in H.
  - injection H as <-. unfold total. cbn. lia.
  - rewrite total_cons. destruct n as [bs|].
    + cbn [app run_notes] in H. destruct (note_step os bs) as [os1|] eqn:E; [|discriminate].
      apply note_step_open in E. destruct W as (a & z & Ha & Hz & ->). cbn [plain_net].
      rewrite net_note by assumption. rewrite (IH _ _ H). lia.
    + cbn [app] in H. destruct x; cbn in W; try contradiction; cbn [plain_net]; rewrite (IH _ _ H); lia.
Qed.

Lemma Forall2_firstn {A B} (R : A -> B -> Prop) xs ns i :
  Forall2 R xs ns -> Forall2 R (firstn i xs) (firstn i ns).
Proof.
  intros H. revert i. induction H as [|x n xs ns W _ IH]; intros [|i]; cbn; constructor; auto.
Qed.

Lemma opened_run xs ns fin i : Forall2 written xs ns -> run_notes [] (notes_of ns) = Some fin ->
  opened plain_net xs i = Z.of_nat (open_after ns i).
Proof.
  intros W H. unfold open_after.
  assert (E : exists os, run_notes [] (notes_of (firstn (S i) ns)) = Some os).
  { rewrite <- (firstn_skipn (S i) ns) in H. unfold notes_of in *. rewrite flat_map_app, run_app in H.
    destruct (run_notes [] (flat_map _ (firstn (S i) ns))) as [os|]; [eauto|discriminate]. }
  destruct E as [os E]. rewrite E. unfold opened.
  rewrite (total_run (firstn (S i) xs) (firstn (S i) ns) (Forall2_firstn _ _ _ _ W) [] os E).
  cbn. lia.
Qed.

(** C56, export then import: notes whose beams fit together come back with the same
    beam number exactly when a beam joins them without interruption, and notes with
    no beam on either side are in none. *)
Theorem C56_beam_groups : forall xs ns fin, xs <> [] -> Forall2 written xs ns ->
  run_notes [] (notes_of ns) = Some fin -> open_levels fin = 0 ->
  exists nums gnums, analyzeLayerBeams xs = Some (nums, gnums) /\ length nums = length xs /\
    (forall i, i < length xs ->
       (nth i nums 0 = 0 <-> open_after ns i = 0 /\ (i = 0 \/ open_after ns (i - 1) = 0))) /\
    (forall i j, i < j -> j < length xs -> nth i nums 0 <> 0 ->
       (nth i nums 0 = nth j nums 0 <-> forall k, i <= k < j -> open_after ns k <> 0)).
Proof.
  intros xs ns fin Hn W H Z0.
  destruct (C56_reading xs Hn) as (nums & gnums & E & F). exists nums, gnums. split; [exact E|].
  apply Forall_inv in F. destruct F as (L & F & _). split; [exact L|].
  assert (B : balanced plain_net xs).
  { split.
    - intros i _. rewrite (opened_run xs ns fin i W H). lia.
    - rewrite (total_run xs ns W [] fin H), Z0. reflexivity. }
  destruct (F B) as [F1 F2]. split.
  - intros i Hi. rewrite (F1 i Hi), !(opened_run xs ns fin _ W H).
    split; intros [X [Y|Y]]; (split; [lia|]); lia.
  - intros i j Hij Hj Hz. rewrite (F2 i j Hij Hj Hz).
    split; intros G k Hk; specialize (G k Hk); rewrite (opened_run xs ns fin _ W H) in *; lia.
Qed.
Print Assumptions C56_beam_groups.

Example C56_nonvacuous :
  let ns := [Some [BStart; BStart]; Some [BContinue; BStop]; None; Some [BStop; BPartialLeft];
             Some []; Some [BStart]; Some [BStop]] in
  let xs := [Plain (S_ "16cLL"); Plain (S_ "16dJ"); Grace (S_ "qeL"); Plain (S_ "8.eJk");
             Plain (S_ "4f"); Plain (S_ "8gL"); Plain (S_ "8aJ")] in
  Forall2 written xs ns /\ run_notes [] (notes_of ns) = Some [false; false] /\
  analyzeLayerBeams xs = Some ([1; 1; 1; 1; 0; 2; 2], [0; 0; 0; 0; 0; 0; 0]).
Proof.
  cbv zeta. split; [|split; reflexivity].
  assert (N : no_beam_letters []) by (split; reflexivity).
  constructor; [exists (S_ "16c"), []; repeat split|].
  constructor; [exists (S_ "16d"), []; repeat split|].
  constructor; [exact I|].
  constructor; [exists (S_ "8.e"), []; repeat split|].
  constructor; [exists (S_ "4f"), []; repeat split|].
  constructor; [exists (S_ "8g"), []; repeat split|].
  constructor; [exists (S_ "8a"), []; repeat split|]. constructor.
Qed.
