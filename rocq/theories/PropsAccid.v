(** Property theorem C30 (printed accidentals). *)
From Coq Require Import Lia.
From Verif Require Import PyStr PyStrProofs PitchModel BarModel BarProofs AccidModel AccidProofs.

Definition plain (track : nat) (s : str) : tok := mkTok track true s (fun _ => false).

(** C30.  The full statement is [C30_accidentals_partial] without its hypothesis on
    turns.  A turn marks the neighbouring position as altered although nothing is
    printed on that position: with no key signature, a turn on c with a whole step
    above, spelled with a chromatic neighbour, hides the flat of the following d. *)
Theorem C30_accidentals_refuted : exists ls,
  map (fun nh => (n_accid (fst nh), n_tied (fst nh), snd nh)) (perform p0 ls (analyzeKernAccidentals [] ls))
  = [(0, false, 0); (-1, false, 0)]%Z.
Proof. exists [DataLine [plain 1 (S_ "4cSss")]; DataLine [plain 1 (S_ "4d-")]]. vm_compute. reflexivity. Qed.
Print Assumptions C30_accidentals_refuted.

(** C30, part: in a file without turns ('S' and '$'), whatever the editorial
    signifiers and layout requests, the marked notes are the notes of the text and a
    performer who sees exactly the marked accidentals hears every note that does not
    continue a tie with its encoded alteration.  (The bound on the alteration is the
    sentinel the code uses: 1000.) *)
Theorem C30_accidentals_partial : forall (sigs : list str) (ls : list aline),
  (forall l ts t, In l ls -> l = DataLine ts -> In t ts -> t_kern t = true ->
     char_in "S" (t_text t) = false /\ char_in "$" (t_text t) = false) ->
  (forall l k p a tied, In l ls -> In (k, p, a, tied) (spec_line l) -> (-400 < a < 400)%Z) ->
  let nss := analyzeKernAccidentals sigs ls in
  map (map strip) nss = map spec_line ls /\
  forall n h, In (n, h) (perform p0 ls nss) -> n_tied n = false -> h = n_accid n.
Proof.
  intros sigs ls T A nss. pose proof (analyze_notes sigs ls a0) as E. split; [exact E|].
  assert (H : heard_right (perform p0 ls nss)).
  { apply performed.
    - rewrite Forall_forall. intros l Hl. destruct l as [ts|ts|ts|]; cbn [line_no_turn]; auto.
      rewrite Forall_forall. intros t Ht Hk. destruct (T _ _ _ Hl eq_refl Ht Hk). split; assumption.
    - split; [reflexivity|]. intros t d _. split; left; reflexivity.
    - rewrite Forall_forall. intros ns Hns. unfold small. rewrite Forall_forall. intros n Hn.
      assert (I : In (map strip ns) (map spec_line ls)) by (rewrite <- E; apply in_map, Hns).
      apply in_map_iff in I as [l [El Hl]].
      apply (A l (n_track n) (n_pos n) (n_accid n) (n_tied n) Hl). rewrite El.
      apply (in_map strip), Hn. }
  unfold heard_right in H. rewrite Forall_forall in H. intros n h I. exact (H (n, h) I).
Qed.
Print Assumptions C30_accidentals_partial.

(** C30, the performer's key signature: every letter is altered as written, for any
    list of letters with sharps, flats and naturals (a flat wins over a sharp). *)
Theorem C30_key_signature : forall (is : list (ascii * accid)) (pc : Z),
  (forall i, In i is -> In (fst i) ["a"; "b"; "c"; "d"; "e"; "f"; "g"]%char) -> (0 <= pc < 7)%Z ->
  let letter := nth (Z.to_nat pc) ["c"; "d"; "e"; "f"; "g"; "a"; "b"]%char "c"%char in
  let x := fillKeySignature (S_ "*k[" ++ concat (map (fun i => [fst i; accid_char (snd i)]) is) ++ S_ "]") pc in
  (x = (-1)%Z <-> In (letter, Flat) is) /\
  (x = 1%Z <-> In (letter, Sharp) is /\ ~ In (letter, Flat) is) /\
  (x = 0%Z <-> ~ In (letter, Sharp) is /\ ~ In (letter, Flat) is).
Proof.
  intros is pc Hl P letter x.
  assert (E : diatonic_letter pc = letter).
  { unfold letter. assert (pc = 0 \/ pc = 1 \/ pc = 2 \/ pc = 3 \/ pc = 4 \/ pc = 5 \/ pc = 6)%Z as C by lia.
    repeat destruct C as [->|C]; try subst pc; reflexivity. }
  assert (OK : forallb item_ok is = true).
  { rewrite forallb_forall. intros i Hi. specialize (Hl i Hi). unfold item_ok.
    cbn [In] in Hl. repeat destruct Hl as [Hl|Hl]; try contradiction; rewrite <- Hl; reflexivity. }
  pose proof (fill_items is pc OK P) as F. fold (spell is) in x. fold x in F. rewrite E in F.
  set (f := existsb _ is) in F. set (s := existsb _ is) in F.
  assert (Ff : f = true <-> In (letter, Flat) is).
  { unfold f. rewrite existsb_exists. split.
    - intros [[c a] [I Q]]. cbn in Q. apply andb_true_iff in Q as [Q1 Q2]. apply Ascii.eqb_eq in Q1. subst c.
      destruct a; try discriminate. exact I.
    - intros I. eexists. split; [exact I|]. cbn [fst snd]. rewrite Ascii.eqb_refl. reflexivity. }
  assert (Fs : s = true <-> In (letter, Sharp) is).
  { unfold s. rewrite existsb_exists. split.
    - intros [[c a] [I Q]]. cbn in Q. apply andb_true_iff in Q as [Q1 Q2]. apply Ascii.eqb_eq in Q1. subst c.
      destruct a; try discriminate. exact I.
    - intros I. eexists. split; [exact I|]. cbn [fst snd]. rewrite Ascii.eqb_refl. reflexivity. }
  rewrite <- Ff, <- Fs, F. clear. destruct f, s; repeat split; intros; try lia; try tauto; try congruence;
    try (destruct H; congruence).
Qed.
Print Assumptions C30_key_signature.

(** An ordinary history: D major, a printed natural cancelled within the bar, the
    barline, a grace note, a trill, a chord, and a tied note across the bar. *)
Definition c30_ls : list aline :=
  [ Interpretation [plain 1 (S_ "*k[f#c#]"); plain 2 (S_ "*k[b-]")];
    DataLine [plain 1 (S_ "4fn"); plain 2 (S_ "4B-")];
    DataLine [plain 1 (S_ "4f#"); plain 2 (S_ "4B")];
    DataLine [plain 1 (S_ "qc"); plain 2 (S_ ".")];
    DataLine [plain 1 (S_ "[4c#"); plain 2 (S_ "4B- 4dT")];
    BarLine [plain 1 (S_ "=2"); plain 2 (S_ "=2")];
    DataLine [plain 1 (S_ "4c#]"); plain 2 (S_ "4B 4d")];
    DataLine [plain 1 (S_ "4c#"); plain 2 (S_ "4e-")] ].
Example C30_nonvacuous :
  (forall l ts t, In l c30_ls -> l = DataLine ts -> In t ts -> t_kern t = true ->
     char_in "S" (t_text t) = false /\ char_in "$" (t_text t) = false) /\
  (forall l k p a tied, In l c30_ls -> In (k, p, a, tied) (spec_line l) -> (-400 < a < 400)%Z) /\
  map (map (fun n => (n_accid n, n_visual n))) (analyzeKernAccidentals [] c30_ls) =
  [ []; [(0, true); (-1, false)]; [(1, true); (0, true)]; [(0, true)];
    [(1, true); (-1, true); (0, false)]; []; [(1, false); (0, true); (0, false)];
    [(1, false); (-1, true)] ]%Z.
Proof.
  split; [|split].
  - intros l ts t Hl -> Ht _. revert Ht.
    repeat (destruct Hl as [Hl|Hl]; [try discriminate Hl; injection Hl as <-;
      intros Ht; repeat (destruct Ht as [<-|Ht]; [split; reflexivity|]); contradiction|]). contradiction.
  - intros l k p a tied Hl H.
    repeat (destruct Hl as [<-|Hl]; [vm_compute in H;
      repeat (destruct H as [H|H]; [apply pair_equal_spec in H as [H _];
        apply pair_equal_spec in H as [_ <-]; lia|]); contradiction|]). contradiction.
  - vm_compute. reflexivity.
Qed.
