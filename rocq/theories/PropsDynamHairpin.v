(** C139: hairpins written to a dynam column of a Humdrum file and read back. *)
From Coq Require Import Lia ZArith.
From Verif Require Import DateModel PyStr PyStrProofs LayoutModel LayoutProofs BarModel BarProofs SignifierModel SignifierProofs DynamModel DynamProofs.

(** ** Tokens *)
Definition text_of (ps : list piece) : str := join (S_ " ") (map piece_text ps).
Lemma token_text ps : dynam_token ps = match ps with [] => None | _ => Some (text_of ps) end.
Proof.
  unfold dynam_token. destruct ps as [|p ps]; [reflexivity|]. cbn [fold_left add_piece].
  assert (H : forall s, fold_left add_piece ps (Some s) = Some (match ps with [] => s | _ => s ++ S_ " " ++ text_of ps end)).
  { induction ps as [|q ps IH]; intro s; [reflexivity|]. cbn [fold_left add_piece]. rewrite IH. f_equal.
    destruct ps as [|r ps]; [reflexivity|]. unfold text_of. cbn [map].
    change (join (S_ " ") (piece_text q :: piece_text r :: map piece_text ps)) with (piece_text q ++ S_ " " ++ join (S_ " ") (piece_text r :: map piece_text ps)).
    rewrite <- !app_assoc. reflexivity. }
  rewrite H. f_equal. destruct ps; reflexivity.
Qed.

Lemma join_chars c ws : char_in c (S_ " ") = false -> char_in c (join (S_ " ") ws) = existsb (char_in c) ws.
Proof.
  intro H. induction ws as [|w ws IH]; [reflexivity|]. destruct ws as [|x ws]; [cbn; rewrite orb_false_r; reflexivity|].
  change (join (S_ " ") (w :: x :: ws)) with (w ++ S_ " " ++ join (S_ " ") (x :: ws)).
  rewrite !char_in_app, H, IH. reflexivity.
Qed.
(** A mark that no dynamic has. *)
Definition lettered (p : piece) : Prop := match p with Dyn s => forallb is_alpha s = true /\ s <> [] | _ => True end.
Lemma alpha_lacks c s : is_alpha c = false -> forallb is_alpha s = true -> char_in c s = false.
Proof.
  intros C. unfold char_in. induction s as [|x s IH]; [reflexivity|]. cbn [forallb existsb]. intro H. apply andb_true_iff in H as [H1 H2].
  rewrite IH by exact H2. destruct (Ascii.eqb c x) eqn:E; [|reflexivity]. apply Ascii.eqb_eq in E. subst x. congruence.
Qed.
Definition mark_of (p : piece) : option ascii :=
  match p with Dyn _ => None | Start Cresc => Some "<"%char | Start Dim => Some ">"%char | Stop Cresc => Some "["%char | Stop Dim => Some "]"%char end.
Lemma mark_in c p : is_alpha c = false -> lettered p ->
  char_in c (piece_text p) = match mark_of p with Some m => Ascii.eqb c m | None => false end.
Proof.
  intros C L. destruct p as [s|[]|[]]; cbn [piece_text mark_of].
  - apply alpha_lacks; [exact C|exact (proj1 L)].
  - change (char_in c (S_ "<")) with (Ascii.eqb c "<" || false). apply orb_false_r.
  - change (char_in c (S_ ">")) with (Ascii.eqb c ">" || false). apply orb_false_r.
  - change (char_in c (S_ "[")) with (Ascii.eqb c "[" || false). apply orb_false_r.
  - change (char_in c (S_ "]")) with (Ascii.eqb c "]" || false). apply orb_false_r.
Qed.
Lemma text_mark c ps : is_alpha c = false -> char_in c (S_ " ") = false -> Forall lettered ps ->
  char_in c (text_of ps) = true <-> exists p, In p ps /\ mark_of p = Some c.
Proof.
  intros C N L. unfold text_of. rewrite join_chars by exact N. rewrite existsb_exists. split.
  - intros (w & W & H). apply in_map_iff in W as (p & <- & I). exists p. split; [exact I|].
    rewrite Forall_forall in L. rewrite mark_in in H by auto. destruct (mark_of p) as [m|]; [|discriminate].
    apply Ascii.eqb_eq in H. congruence.
  - intros (p & I & M). exists (piece_text p). split; [apply in_map, I|]. rewrite Forall_forall in L. rewrite mark_in by auto. rewrite M. apply Ascii.eqb_refl.
Qed.
Lemma hairpins_char c s : is_alpha c = false -> char_in c (hairpins s) = char_in c s.
Proof.
  intro C. unfold hairpins, char_in. induction s as [|x s IH]; [reflexivity|]. cbn [filter existsb].
  destruct (is_alpha x) eqn:X; cbn [negb]; [|cbn [existsb]; rewrite IH; reflexivity].
  rewrite IH. destruct (Ascii.eqb c x) eqn:E; [|reflexivity]. apply Ascii.eqb_eq in E. subst x. congruence.
Qed.

(** No start of a hairpin comes before an end of one of the same kind. *)
Definition stops_first (k : wedge) (ps : list piece) : Prop :=
  forall l1 l2, ps = l1 ++ Start k :: l2 -> ~ In (Stop k) l2.

Lemma stop_mark k p : mark_of p = Some (stop_char k) -> p = Stop k.
Proof. destruct k, p as [s|[]|[]]; cbn; congruence. Qed.
Lemma start_mark k p : mark_of p = Some (start_char k) -> p = Start k.
Proof. destruct k, p as [s|[]|[]]; cbn; congruence. Qed.

Lemma after_start k ps : Forall lettered ps -> stops_first k ps ->
  forall a b, text_of ps = a ++ start_char k :: b -> char_in (stop_char k) b = false.
Proof.
  induction ps as [|p ps IH]; intros L S a b E; [destruct a; discriminate|].
  apply Forall_cons_iff in L as [Lp L].
  assert (S' : stops_first k ps). { intros l1 l2 H. apply (S (p :: l1) l2). rewrite H. reflexivity. }
  assert (T : exists rest, text_of (p :: ps) = piece_text p ++ rest /\ (rest = [] \/ rest = " "%char :: text_of ps) /\ char_in (stop_char k) rest = char_in (stop_char k) (text_of ps)).
  { destruct ps as [|q ps]; [exists []; unfold text_of; cbn [map join]; rewrite app_nil_r; split; [reflexivity|split; [left; reflexivity|reflexivity]]|].
    exists (" "%char :: text_of (q :: ps)). split; [reflexivity|]. split; [right; reflexivity|]. destruct k; reflexivity. }
  destruct T as (rest & T & R & Rc). rewrite T in E. clear T.
  (* is the start in this piece or later? *)
  assert (D : (exists u, piece_text p = a ++ start_char k :: u /\ b = u ++ rest) \/ (exists u, a = piece_text p ++ u /\ rest = u ++ start_char k :: b)).
  { clear - E. revert a E. generalize (piece_text p) as x. induction x as [|c x IH]; intros a E.
    - right. exists a. auto.
    - destruct a as [|d a].
      + injection E as -> E. left. exists x. auto.
      + injection E as <- E. destruct (IH a E) as [(u & -> & ->)|(u & -> & ->)]; [left|right]; exists u; auto. }
  destruct D as [(u & D & ->)|(u & -> & D)].
  - assert (C : char_in (start_char k) (piece_text p) = true).
    { rewrite D, char_in_app. apply orb_true_iff. right. unfold char_in. cbn [existsb]. rewrite Ascii.eqb_refl. reflexivity. }
    rewrite mark_in in C by (try exact Lp; destruct k; reflexivity). destruct (mark_of p) as [m|] eqn:M; [|discriminate].
    apply Ascii.eqb_eq in C. subst m. apply start_mark in M. subst p.
    assert (u = []). { destruct k; cbn in D; destruct a as [|x [|y a]]; cbn in D; injection D; auto; discriminate. } subst u. cbn [app].
    rewrite Rc. destruct (char_in (stop_char k) (text_of ps)) eqn:X; [|reflexivity]. exfalso.
    apply text_mark in X; [|destruct k; reflexivity|destruct k; reflexivity|exact L]. destruct X as (q & I & Q). apply stop_mark in Q. subst q.
    exact (S [] ps eq_refl I).
  - destruct R as [->|R]; [destruct u; discriminate|]. rewrite R in D. destruct u as [|x u]; [destruct k; discriminate|].
    injection D as _ D. exact (IH L S' u b D).
Qed.

(** So no hairpin is taken to end where it starts. *)
Lemma filter_split {A} (p : A -> bool) l a c b : filter p l = a ++ c :: b -> exists a' b', l = a' ++ c :: b' /\ b = filter p b'.
Proof.
  revert a. induction l as [|x l IH]; intros a E; cbn in E; [destruct a; discriminate|]. destruct (p x).
  - destruct a as [|y a]; injection E as -> E; [exists [], l; auto|]. destruct (IH a E) as (a' & b' & -> & ->). exists (y :: a'), b'. auto.
  - destruct (IH a E) as (a' & b' & -> & ->). exists (x :: a'), b'. auto.
Qed.
Lemma no_start_stop k ps : Forall lettered ps -> stops_first k ps ->
  contains [start_char k; stop_char k] (hairpins (text_of ps)) = false /\
  contains [start_char k; " "%char; stop_char k] (hairpins (text_of ps)) = false.
Proof.
  intros L S.
  assert (H : forall m, contains (start_char k :: m ++ [stop_char k]) (hairpins (text_of ps)) = false).
  { intro m. apply contains_false. intros (a & b & E). cbn [app] in E.
    unfold hairpins in E. apply filter_split in E as (a' & b' & E & F).
    pose proof (after_start k ps L S a' b' E) as N. rewrite <- (hairpins_char (stop_char k)) in N by (destruct k; reflexivity).
    unfold hairpins in N. rewrite <- F in N. rewrite !char_in_app in N. unfold char_in at 2 in N. cbn [existsb] in N. rewrite Ascii.eqb_refl in N.
    cbn in N. rewrite orb_true_r in N. discriminate. }
  split; [exact (H [])|exact (H [" "%char])].
Qed.

(** Two ends never stand side by side without a space. *)
Lemma no_double k ps : Forall lettered ps -> contains [stop_char k; stop_char k] (text_of ps) = false.
Proof.
  induction ps as [|p ps IH]; intro L; [destruct k; reflexivity|]. apply Forall_cons_iff in L as [Lp L]. specialize (IH L).
  assert (P : forall t, (t = [] \/ exists u, t = " "%char :: u /\ contains [stop_char k; stop_char k] u = false) ->
              contains [stop_char k; stop_char k] (piece_text p ++ t) = false).
  { intros t T.
    assert (T0 : contains [stop_char k; stop_char k] t = false).
    { destruct T as [->|(u & -> & U)]; [destruct k; reflexivity|]. cbn [contains starts_with]. rewrite U. destruct k; reflexivity. }
    assert (A : forall s, forallb is_alpha s = true -> contains [stop_char k; stop_char k] (s ++ t) = false).
    { induction s as [|c s IHs]; intro H; [exact T0|]. cbn [forallb] in H. apply andb_true_iff in H as [H1 H2]. cbn [app contains starts_with].
      rewrite IHs by exact H2. destruct (Ascii.eqb (stop_char k) c) eqn:E; [|reflexivity]. apply Ascii.eqb_eq in E. subst c. destruct k; discriminate. }
    assert (B : forall c, contains [stop_char k; stop_char k] (c :: t) = false).
    { intro c. cbn [contains starts_with]. rewrite T0, orb_false_r. destruct T as [->|(u & -> & U)]; [apply andb_false_r|].
      destruct k; apply andb_false_r. }
    destruct p as [s|[]|[]]; [exact (A s (proj1 Lp))|apply B..]. }
  destruct ps as [|q ps].
  - unfold text_of. cbn [map join]. rewrite <- (app_nil_r (piece_text p)). apply P. left. reflexivity.
  - change (text_of (p :: q :: ps)) with (piece_text p ++ " "%char :: text_of (q :: ps)). apply P. right. eauto.
Qed.

(** ** A column of hairpins *)

(** Hairpins one after the other: (kind, moment of the start, moment of the end). *)
Definition hp := (wedge * nat * nat)%type.
Fixpoint in_turn (m : nat) (ws : list hp) : Prop :=
  match ws with
  | [] => True
  | (k, i, j) :: t => m <= i /\ i < j /\ in_turn j t
  end.

(** A part: what is written at each moment, in the order of writing. *)
Record column_of (ws : list hp) (at_ : nat -> list piece) : Prop := {
  starts : forall m k, In (Start k) (at_ m) <-> exists j, In (k, m, j) ws;
  stops : forall m k, In (Stop k) (at_ m) <-> exists i, In (k, i, m) ws;
  dynamics : forall m s, In (Dyn s) (at_ m) -> standard s;
  order : forall m k, stops_first k (at_ m);
  outside : forall m s k i j, In (Dyn s) (at_ m) -> In (k, i, j) ws -> m <= i \/ j <= m }.

Lemma in_turn_after m ws k i j : in_turn m ws -> In (k, i, j) ws -> m <= i /\ i < j.
Proof.
  revert m. induction ws as [|[[k0 i0] j0] ws IH]; intros m T I; [destruct I|]. destruct T as (A & B & T).
  destruct I as [E|I]; [injection E as -> -> ->; auto|]. destruct (IH _ T I). lia.
Qed.
Lemma in_turn_apart m ws k i j k' i' j' : in_turn m ws -> In (k, i, j) ws -> In (k', i', j') ws ->
  (k, i, j) = (k', i', j') \/ j <= i' \/ j' <= i.
Proof.
  revert m. induction ws as [|[[k0 i0] j0] ws IH]; intros m T I I'; [destruct I|]. destruct T as (A & B & T).
  destruct I as [E|I], I' as [E'|I'].
  - left. congruence.
  - right; left. injection E as -> -> ->. apply (in_turn_after _ _ _ _ _ T I').
  - right; right. injection E' as -> -> ->. apply (in_turn_after _ _ _ _ _ T I).
  - exact (IH _ T I I').
Qed.

Section Column.
Variables (ws : list hp) (at_ : nat -> list piece).
Hypothesis T : in_turn 0 ws.
Hypothesis C : column_of ws at_.

Lemma all_lettered m : Forall lettered (at_ m).
Proof.
  apply Forall_forall. intros [s|k|k] I; cbn; [|exact Logic.I..]. pose proof (dynamics _ _ C m s I) as S.
  split; [apply std_alpha, S|apply std_nonempty, S].
Qed.
Lemma start_char_iff m k : char_in (start_char k) (text_of (at_ m)) = true <-> exists j, In (k, m, j) ws.
Proof.
  rewrite <- (starts _ _ C). rewrite text_mark; [|destruct k; reflexivity|destruct k; reflexivity|apply all_lettered]. split.
  - intros (p & I & M). apply start_mark in M. subst p. exact I.
  - intro I. exists (Start k). split; [exact I|]. destruct k; reflexivity.
Qed.
Lemma stop_char_iff m k : char_in (stop_char k) (text_of (at_ m)) = true <-> exists i, In (k, i, m) ws.
Proof.
  rewrite <- (stops _ _ C). rewrite text_mark; [|destruct k; reflexivity|destruct k; reflexivity|apply all_lettered]. split.
  - intros (p & I & M). apply stop_mark in M. subst p. exact I.
  - intro I. exists (Stop k). split; [exact I|]. destruct k; reflexivity.
Qed.
Lemma inside_empty k i j m : In (k, i, j) ws -> i < m < j -> at_ m = [].
Proof.
  intros W M. destruct (at_ m) as [|p ps] eqn:E; [reflexivity|exfalso]. assert (I : In p (at_ m)) by (rewrite E; now left).
  destruct p as [s|k'|k'].
  - destruct (outside _ _ C m s k i j I W); lia.
  - apply (starts _ _ C) in I as (j' & I). destruct (in_turn_apart _ _ _ _ _ _ _ _ T W I) as [X|[X|X]]; [congruence || (injection X; lia)|lia|].
    pose proof (in_turn_after _ _ _ _ _ T I). lia.
  - apply (stops _ _ C) in I as (i' & I). destruct (in_turn_apart _ _ _ _ _ _ _ _ T W I) as [X|[X|X]]; [injection X; lia| |lia].
    pose proof (in_turn_after _ _ _ _ _ T I). lia.
Qed.

Definition toks (m n : nat) : list (option str) := map (fun m => dynam_token (at_ m)) (seq m n).

Lemma end_found k i j n : In (k, i, j) ws -> forall m, i < m <= j -> j < m + n ->
  hairpin_end (stop_char k) m (toks m n) = Some (j, text_of (at_ j)).
Proof.
  intro W. induction n as [|n IH]; intros m M N; [lia|]. unfold toks. cbn [seq map]. fold (toks (S m) n). rewrite token_text.
  destruct (Nat.eq_dec m j) as [->|D].
  - assert (S : char_in (stop_char k) (text_of (at_ j)) = true) by (apply stop_char_iff; eauto).
    destruct (at_ j) as [|p ps] eqn:E; [destruct k; discriminate S|]. rewrite <- E in *. cbn [hairpin_end]. rewrite S. reflexivity.
  - rewrite (inside_empty k i j m W) by lia. cbn [hairpin_end]. apply IH; lia.
Qed.

Lemma one_start m k j k' j' : In (k, m, j) ws -> In (k', m, j') ws -> k = k' /\ j = j'.
Proof.
  intros A B. destruct (in_turn_apart _ _ _ _ _ _ _ _ T A B) as [X|[X|X]].
  - injection X; auto.
  - pose proof (in_turn_after _ _ _ _ _ T A). lia.
  - pose proof (in_turn_after _ _ _ _ _ T B). lia.
Qed.
Lemma no_other_start m k j k' : In (k, m, j) ws -> k' <> k -> char_in (start_char k') (text_of (at_ m)) = false.
Proof.
  intros A D. destruct (char_in (start_char k') (text_of (at_ m))) eqn:E; [|reflexivity]. exfalso.
  apply start_char_iff in E as (j' & B). destruct (one_start m k j k' j' A B). congruence.
Qed.

Lemma process_one m k j n : In (k, m, j) ws -> j < S m + n ->
  processHairpin m (hairpins (text_of (at_ m))) (toks (S m) n) = [Hairpin k m j].
Proof.
  intros W N. pose proof (in_turn_after _ _ _ _ _ T W) as B.
  pose proof (no_start_stop k (at_ m) (all_lettered m) (order _ _ C m k)) as (S1 & S2).
  assert (Y : char_in (start_char k) (text_of (at_ m)) = true) by (apply start_char_iff; eauto).
  unfold processHairpin. rewrite !hairpins_char by reflexivity.
  destruct k; cbn [start_char] in *.
  - rewrite Y. rewrite S1, S2. cbn [orb]. rewrite (end_found Cresc m j n W) by lia.
    rewrite no_double by apply all_lettered. reflexivity.
  - pose proof (no_other_start m Dim j Cresc W ltac:(discriminate)) as Z. cbn [start_char] in Z. rewrite Z, Y. rewrite S1, S2. cbn [orb]. rewrite (end_found Dim m j n W) by lia.
    rewrite no_double by apply all_lettered. reflexivity.
Qed.
Lemma process_none m n : (forall k j, ~ In (k, m, j) ws) -> processHairpin m (hairpins (text_of (at_ m))) (toks (S m) n) = [].
Proof.
  intro H. unfold processHairpin. rewrite !hairpins_char by reflexivity.
  assert (Z : forall k, char_in (start_char k) (text_of (at_ m)) = false).
  { intro k. destruct (char_in (start_char k) (text_of (at_ m))) eqn:E; [|reflexivity]. exfalso. apply start_char_iff in E as (j & E). exact (H k j E). }
  pose proof (Z Cresc) as Z1. pose proof (Z Dim) as Z2. cbn [start_char] in Z1, Z2. rewrite Z1, Z2. reflexivity.
Qed.
Lemma process_empty m : at_ m = [] -> (forall k j, ~ In (k, m, j) ws).
Proof. intros E k j I. assert (X : In (Start k) (at_ m)) by (apply (starts _ _ C); eauto). rewrite E in X. exact X. Qed.

Lemma read_from n : forall m rem done, ws = done ++ rem -> (forall k i j, In (k, i, j) ws -> j < m + n) ->
  (forall k i j, In (k, i, j) ws -> In (k, i, j) rem \/ i < m) -> in_turn m rem ->
  read_hairpins m (toks m n) = map (fun '(k, i, j) => Hairpin k i j) rem.
Proof.
  induction n as [|n IH]; intros m rem done E N D R.
  - cbn. destruct rem as [|[[k i] j] rem]; [reflexivity|exfalso]. destruct R as (A & B & _).
    assert (I : In (k, i, j) ws) by (rewrite E; apply in_or_app; right; now left). specialize (N _ _ _ I). lia.
  - unfold toks. cbn [seq map]. fold (toks (S m) n). cbn [read_hairpins]. rewrite token_text.
    assert (X : exists k j rem', rem = (k, m, j) :: rem' \/ (in_turn (S m) rem /\ forall k j, ~ In (k, m, j) ws)).
    { destruct rem as [|[[k i] j] rem].
      - exists Cresc, 0, []. right. split; [exact Logic.I|]. intros k j I. destruct (D _ _ _ I) as [[]|L]. lia.
      - destruct R as (A & B & R). destruct (Nat.eq_dec i m) as [->|Ne]; [exists k, j, rem; left; reflexivity|].
        exists k, j, rem. right. split; [cbn; split; [lia|split; [exact B|exact R]]|]. intros k' j' I. destruct (D _ _ _ I) as [[X|X]|L]; [injection X; lia| |lia].
        pose proof (in_turn_after _ _ _ _ _ R X). lia. }
    destruct X as (k & j & rem' & [X|[X Y]]).
    + assert (I : In (k, m, j) ws) by (rewrite E, X; apply in_or_app; right; now left).
      destruct (at_ m) as [|p ps] eqn:Ea; [exfalso; exact (process_empty m Ea k j I)|]. rewrite <- Ea.
      rewrite (process_one m k j n I) by (specialize (N _ _ _ I); lia). rewrite X. cbn [map app]. f_equal.
      rewrite X in R. destruct R as (A & B & R).
      apply (IH (S m) rem' (done ++ [(k, m, j)])).
      * rewrite <- app_assoc, E, X. reflexivity.
      * intros k' i' j' I'. specialize (N _ _ _ I'). lia.
      * intros k' i' j' I'. destruct (D _ _ _ I') as [Q|Q]; [|right; lia]. rewrite X in Q. destruct Q as [Q|Q]; [injection Q as <- <- <-; right; lia|left; exact Q].
      * assert (G : forall a b l, a <= b -> in_turn b l -> in_turn a l). { intros a b [|[[q1 q2] q3] l] Hab; cbn; [auto|]. intros (H1 & H2 & H3). split; [lia|auto]. }
        apply (G (S m) j); [lia|exact R].
    + assert (Q : read_hairpins (S m) (toks (S m) n) = map (fun '(k, i, j) => Hairpin k i j) rem).
      { apply (IH (S m) rem done); [exact E| | |exact X].
        - intros k' i' j' I'. specialize (N _ _ _ I'). lia.
        - intros k' i' j' I'. destruct (D _ _ _ I'); [left; assumption|right; lia]. }
      destruct (at_ m) as [|p ps] eqn:Ea; [exact Q|]. rewrite <- Ea. rewrite (process_none m n Y). exact Q.
Qed.
End Column.

(** The dynamics of the same column. *)
Definition dyns_of (ps : list piece) : list str := flat_map (fun p => match p with Dyn s => [s] | _ => [] end) ps.
Lemma letters_app a b : letters (a ++ b) = letters a ++ letters b.
Proof. apply filter_app. Qed.
Lemma letters_text ps : Forall lettered ps -> letters (text_of ps) = concat (dyns_of ps).
Proof.
  intro L. assert (P : forall p, lettered p -> letters (piece_text p) = match p with Dyn s => s | _ => [] end).
  { intros [s|[]|[]] Lp; try reflexivity. apply filter_all, (proj1 Lp). }
  induction ps as [|p ps IH]; [reflexivity|]. apply Forall_cons_iff in L as [Lp L]. specialize (IH L).
  assert (E : letters (text_of (p :: ps)) = letters (piece_text p) ++ letters (text_of ps)).
  { destruct ps as [|q ps]; [unfold text_of; cbn [map join]; rewrite app_nil_r; reflexivity|].
    change (text_of (p :: q :: ps)) with (piece_text p ++ S_ " " ++ text_of (q :: ps)). rewrite !letters_app. reflexivity. }
  rewrite E, IH, P by exact Lp. destruct p; reflexivity.
Qed.
Lemma read_plain_token ps s : Forall lettered ps -> dyns_of ps = [s] -> standard s -> fst (read_token [] (text_of ps) []) = Some s.
Proof.
  intros L D S. unfold read_token. rewrite letters_text by exact L. rewrite D. cbn [concat]. rewrite app_nil_r.
  pose proof (std_read s [] S) as R. unfold letters in R. rewrite filter_all in R by (apply std_alpha, S). rewrite R.
  destruct s as [|c s]; [exfalso; exact (std_nonempty _ S eq_refl)|]. reflexivity.
Qed.
Lemma read_no_token ps : Forall lettered ps -> dyns_of ps = [] -> fst (read_token [] (text_of ps) []) = None.
Proof. intros L D. unfold read_token. rewrite letters_text by exact L. rewrite D. reflexivity. Qed.

(** ** C139 *)

(** Hairpins that follow each other, with no dynamic between the two ends of
    one, are read as they were written, whatever else is written at their ends;
    and so are the dynamics at the same moments. *)
Theorem C139_hairpins_partial : forall ws at_ dyn n,
  in_turn 0 ws -> column_of ws at_ -> (forall k i j, In (k, i, j) ws -> j < n) ->
  (forall m, dyns_of (at_ m) = match dyn m with Some s => [s] | None => [] end) ->
  let tokens := map (fun m => dynam_token (at_ m)) (seq 0 n) in
  read_hairpins 0 tokens = map (fun '(k, i, j) => Hairpin k i j) ws /\
  read_dynamics 0 tokens = flat_map (fun m => match dyn m with Some s => [(m, s)] | None => [] end) (seq 0 n).
Proof.
  intros ws at_ dyn n T C N D tokens. split.
  - apply (read_from ws at_ T C n 0 ws []); [reflexivity|exact N|auto|exact T].
  - subst tokens. clear - C D. generalize 0 as m. induction n as [|n IH]; intro m; [reflexivity|].
    cbn [seq map flat_map read_dynamics]. rewrite token_text.
    pose proof (all_lettered ws at_ C m) as L. specialize (D m) as Dm.
    destruct (at_ m) as [|p ps] eqn:E.
    + destruct (dyn m); [discriminate|]. exact (IH (S m)).
    + rewrite <- E in *. destruct (dyn m) as [s|] eqn:Es.
      * rewrite (read_plain_token (at_ m) s L Dm); [cbn [app]; f_equal; exact (IH (S m))|].
        apply (dynamics _ _ C m). assert (X : In s (dyns_of (at_ m))) by (rewrite Dm; now left).
        unfold dyns_of in X. apply in_flat_map in X as (q & I & X). destruct q as [u|u|u]; [|destruct X..]. destruct X as [->|[]]. exact I.
      * rewrite (read_no_token (at_ m) L Dm). exact (IH (S m)).
Qed.
Print Assumptions C139_hairpins_partial.

Example C139_nonvacuous :
  let ws := [(Cresc, 0, 2); (Dim, 2, 3); (Dim, 3, 5)] in
  let at_ m := match m with
               | 0 => [Start Cresc; Dyn (S_ "pp")]
               | 2 => [Dyn (S_ "ff"); Stop Cresc; Start Dim]
               | 3 => [Stop Dim; Start Dim]
               | 5 => [Stop Dim; Dyn (S_ "p")]
               | _ => []
               end in
  in_turn 0 ws /\ column_of ws at_ /\
  map (fun m => dynam_token (at_ m)) (seq 0 6) = [Some (S_ "< pp"); None; Some (S_ "ff [ >"); Some (S_ "] >"); None; Some (S_ "] p")].
Proof.
  cbv zeta. split; [cbn; lia|]. split; [|reflexivity]. constructor.
  - intros m k. split.
    + do 6 (destruct m as [|m]; [cbn; intuition (try discriminate); match goal with H : Start _ = Start _ |- _ => injection H as <- end; eexists; auto 10|]). intros [].
    + intros (j & I). cbn in I. intuition (match goal with H : (_, _, _) = (_, _, _) |- _ => injection H as <- <- <- end; cbn; auto).
  - intros m k. split.
    + do 6 (destruct m as [|m]; [cbn; intuition (try discriminate); match goal with H : Stop _ = Stop _ |- _ => injection H as <- end; eexists; auto 10|]). intros [].
    + intros (j & I). cbn in I. intuition (match goal with H : (_, _, _) = (_, _, _) |- _ => injection H as <- <- <- end; cbn; auto).
  - intros m s I. destruct m as [|[|[|[|[|[|m]]]]]]; cbn in I; intuition (try discriminate); match goal with H : Dyn _ = Dyn _ |- _ => injection H as <- end.
    + exact (std_piano 1).
    + exact (std_forte [] 1 [] ltac:(cbn; auto) ltac:(cbn; auto)).
    + exact (std_piano 0).
  - intros m k l1 l2 E I.
    do 6 (destruct m as [|m]; [do 4 (destruct l1 as [|? l1]; [cbn in E; try discriminate E; injection E; intros; subst; cbn in I; intuition discriminate|
      cbn in E; try discriminate E; injection E as _ E]); destruct l1; discriminate E|]).
    destruct l1; discriminate E.
  - intros m s k i j I W.
    do 6 (destruct m as [|m]; [cbn in I, W; intuition (try discriminate); match goal with H : (_, _, _) = (_, _, _) |- _ => injection H as <- <- <- end; lia|]).
    destruct I.
Qed.

(** Beyond that hairpins are lost: a dynamic between the ends makes a word of the
    hairpin; of two that start together one is lost; so is one that starts
    before another has ended; and one that starts where one of the same kind
    ends is a hairpin on that note alone when its start is written first. *)
Theorem C139_hairpins_refuted :
  exists a b c d : list (list piece),
    a = [[Start Cresc]; [Dyn (S_ "mf")]; [Stop Cresc]] /\ read_hairpins 0 (map dynam_token a) = [HairpinWord Cresc 0] /\ b = [[Start Dim; Start Cresc]; [Stop Dim; Stop Cresc]] /\ read_hairpins 0 (map dynam_token b) = [Hairpin Cresc 0 1] /\ c = [[Start Cresc]; [Start Dim]; [Stop Cresc]; [Stop Dim]] /\ read_hairpins 0 (map dynam_token c) = [HairpinWord Cresc 0; Hairpin Dim 1 3] /\ d = [[Start Cresc]; [Start Cresc; Stop Cresc]; [Stop Cresc]] /\ read_hairpins 0 (map dynam_token d) = [Hairpin Cresc 0 1; HairpinThrough Cresc 1 1].
Proof.
  eexists _, _, _, _.
  split; [reflexivity|]. split; [vm_compute; reflexivity|]. split; [reflexivity|]. split; [vm_compute; reflexivity|].
  split; [reflexivity|]. split; [vm_compute; reflexivity|]. split; [reflexivity|]. vm_compute. reflexivity.
Qed.
Print Assumptions C139_hairpins_refuted.
