(** Lemmas about the string primitives. *)
From Verif Require Import PyStr.
Ltac Zify.zify_post_hook ::= Z.div_mod_to_equations.

Lemma str_eqb_eq a b : str_eqb a b = true <-> a = b.
Proof.
  revert b; induction a as [|x a IH]; destruct b as [|y b]; simpl; split; intro H;
    try reflexivity; try discriminate.
  - apply andb_true_iff in H as [H1 H2].
    apply Ascii.eqb_eq in H1. apply IH in H2. congruence.
  - inversion H; subst. rewrite Ascii.eqb_refl. simpl. apply IH. reflexivity.
Qed.

Lemma str_eqb_refl a : str_eqb a a = true.
Proof. apply str_eqb_eq; reflexivity. Qed.

Lemma str_eqb_neq a b : str_eqb a b = false <-> a <> b.
Proof.
  split; intro H.
  - intro E. apply str_eqb_eq in E. congruence.
  - destruct (str_eqb a b) eqn:E; [apply str_eqb_eq in E; contradiction|reflexivity].
Qed.

Lemma str_eq_dec (a b : str) : {a = b} + {a <> b}.
Proof. apply list_eq_dec, ascii_dec. Qed.

Lemma str_eqb_sym a b : str_eqb a b = str_eqb b a.
Proof.
  destruct (str_eqb a b) eqn:E.
  - apply str_eqb_eq in E; subst. symmetry; apply str_eqb_refl.
  - symmetry. apply str_eqb_neq. apply str_eqb_neq in E. congruence.
Qed.

(** ** Decimal numerals *)

Lemma N_ascii_roundtrip n : (n < 256)%N -> N_of_ascii (ascii_of_N n) = n.
Proof. apply N_ascii_embedding. Qed.

Lemma digit_val_char d : (d < 10)%N -> digit_val (digit_char d) = d.
Proof.
  intro H. unfold digit_val, digit_char.
  rewrite N_ascii_roundtrip; lia.
Qed.

Lemma is_digit_char d : (d < 10)%N -> is_digit (digit_char d) = true.
Proof.
  intro H. unfold is_digit, digit_char.
  rewrite N_ascii_roundtrip by lia. lia.
Qed.

Definition parse_from (n : N) (s : str) : N :=
  fold_left (fun acc c => 10 * acc + digit_val c)%N s n.

Lemma parse_N_from s : parse_N s = parse_from 0 s.
Proof. reflexivity. Qed.

Lemma show_aux_parse fuel n acc :
  (n < 2 ^ N.of_nat fuel)%N -> parse_from 0 (show_aux fuel n acc) = parse_from n acc.
Proof.
  revert n acc. induction fuel as [|f IH]; intros n acc H.
  - change (2 ^ N.of_nat 0)%N with 1%N in H. assert (n = 0%N) by lia. subst. reflexivity.
  - cbn [show_aux]. destruct (N.ltb_spec n 10) as [Hlt|Hge].
    + unfold parse_from. cbn [fold_left]. rewrite digit_val_char by exact Hlt.
      f_equal.
    + rewrite IH.
      * unfold parse_from. cbn [fold_left]. rewrite digit_val_char by lia.
        f_equal. lia.
      * rewrite Nnat.Nat2N.inj_succ, N.pow_succ_r' in H. lia.
Qed.

Lemma size_nat_bound n : (n < 2 ^ N.of_nat (S (N.size_nat n)))%N.
Proof.
  assert (Hs : N.of_nat (N.size_nat n) = N.size n).
  { destruct n as [|p]; [reflexivity|]. simpl.
    induction p as [p IH|p IH|]; cbn [Pos.size_nat Pos.size]; try reflexivity;
      rewrite Nnat.Nat2N.inj_succ, IH; reflexivity. }
  rewrite Nnat.Nat2N.inj_succ, N.pow_succ_r', Hs.
  pose proof (N.size_gt n). lia.
Qed.

Theorem parse_show_N n : parse_N (show_N n) = n.
Proof.
  unfold show_N. rewrite parse_N_from, show_aux_parse by apply size_nat_bound. reflexivity.
Qed.

Lemma show_aux_digits fuel n acc :
  forallb is_digit acc = true -> forallb is_digit (show_aux fuel n acc) = true.
Proof.
  revert n acc. induction fuel as [|f IH]; intros n acc H; cbn [show_aux]; [exact H|].
  destruct (N.ltb_spec n 10) as [Hlt|Hge].
  - cbn [forallb]. rewrite is_digit_char by exact Hlt. exact H.
  - apply IH. cbn [forallb]. rewrite is_digit_char by lia. exact H.
Qed.

Lemma show_N_digits n : forallb is_digit (show_N n) = true.
Proof. apply show_aux_digits. reflexivity. Qed.

(** First digit of a positive numeral is not ['0']. *)
Lemma show_aux_head fuel n acc :
  (n < 2 ^ N.of_nat fuel)%N -> (0 < n)%N ->
  exists d s, show_aux fuel n acc = digit_char d :: s /\ (0 < d < 10)%N.
Proof.
  revert n acc. induction fuel as [|f IH]; intros n acc H Hn.
  - change (2 ^ N.of_nat 0)%N with 1%N in H. lia.
  - cbn [show_aux]. destruct (N.ltb_spec n 10) as [Hlt|Hge].
    + exists n, acc. split; [reflexivity|lia].
    + apply IH; rewrite Nnat.Nat2N.inj_succ, N.pow_succ_r' in H; lia.
Qed.

Lemma show_N_head n :
  (0 < n)%N -> exists d s, show_N n = digit_char d :: s /\ (0 < d < 10)%N.
Proof. intro H. apply show_aux_head; [apply size_nat_bound|exact H]. Qed.

Lemma show_N_cons n : exists c s, show_N n = c :: s /\ is_digit c = true.
Proof.
  destruct (show_N n) as [|c s] eqn:E.
  - exfalso. destruct n as [|p].
    + discriminate E.
    + destruct (show_N_head (Npos p)) as (d & s & E' & _); [lia|congruence].
  - exists c, s. split; [reflexivity|].
    pose proof (show_N_digits n) as H. rewrite E in H.
    cbn [forallb] in H. apply andb_true_iff in H. tauto.
Qed.

Lemma show_N_inj a b : show_N a = show_N b -> a = b.
Proof. intro H. rewrite <- (parse_show_N a), <- (parse_show_N b), H. reflexivity. Qed.

Lemma digit_char_0 d : (d < 10)%N -> Ascii.eqb (digit_char d) "0"%char = true -> d = 0%N.
Proof.
  intros Hd H. apply Ascii.eqb_eq in H.
  rewrite <- (digit_val_char d Hd), H. reflexivity.
Qed.

(** ** [span] *)

Lemma span_app_all p a b :
  forallb p a = true ->
  (match b with [] => True | c :: _ => p c = false end) ->
  span p (a ++ b) = (a, b).
Proof.
  intros Ha Hb. induction a as [|c a IH]; cbn [app span].
  - destruct b as [|c b]; [reflexivity|]. cbn [span]. rewrite Hb. reflexivity.
  - cbn [forallb] in Ha. apply andb_true_iff in Ha as [H1 H2].
    rewrite H1, IH by exact H2. reflexivity.
Qed.

Lemma span_all p a : forallb p a = true -> span p a = (a, []).
Proof. intro H. rewrite <- (app_nil_r a) at 1. apply span_app_all; [exact H|exact I]. Qed.

Lemma span_join p s : fst (span p s) ++ snd (span p s) = s.
Proof.
  induction s as [|c s IH]; cbn [span]; [reflexivity|].
  destruct (p c); [|reflexivity]. destruct (span p s) as [a b]; cbn in *. congruence.
Qed.

Lemma span_fst_all p s : forallb p (fst (span p s)) = true.
Proof.
  induction s as [|c s IH]; cbn [span]; [reflexivity|].
  destruct (p c) eqn:E; [|reflexivity]. destruct (span p s) as [a b]; cbn in *.
  rewrite E, IH. reflexivity.
Qed.

Lemma span_snd_head p s : match snd (span p s) with [] => True | c :: _ => p c = false end.
Proof.
  induction s as [|c s IH]; cbn [span]; [exact I|].
  destruct (p c) eqn:E; [|cbn; exact E]. destruct (span p s) as [a b]; cbn in *. exact IH.
Qed.

(** ** [split] and [join] *)

Lemma split_char_nonempty sep s : split_char sep s <> [].
Proof.
  destruct s as [|c s]; simpl; [discriminate|].
  destruct (Ascii.eqb c sep); [discriminate|].
  destruct (split_char sep s); discriminate.
Qed.

Theorem join_split sep s : join [sep] (split_char sep s) = s.
Proof.
  induction s as [|c s IH]; [reflexivity|].
  cbn [split_char]. destruct (Ascii.eqb c sep) eqn:E.
  - apply Ascii.eqb_eq in E; subst c.
    destruct (split_char sep s) as [|w ws] eqn:W; [exfalso; eapply split_char_nonempty; eauto|].
    change (join [sep] ([] :: w :: ws)) with (sep :: join [sep] (w :: ws)).
    rewrite IH. reflexivity.
  - destruct (split_char sep s) as [|w ws] eqn:W; [exfalso; eapply split_char_nonempty; eauto|].
    destruct ws as [|w' ws].
    + cbn [join] in *. congruence.
    + change (join [sep] ((c :: w) :: w' :: ws)) with (c :: join [sep] (w :: w' :: ws)).
      rewrite IH. reflexivity.
Qed.

Lemma split_char_no_sep sep s :
  char_in sep s = false -> split_char sep s = [s].
Proof.
  induction s as [|c s IH]; intro H; [reflexivity|].
  unfold char_in in *. cbn [existsb] in H. apply orb_false_iff in H as [H1 H2].
  cbn [split_char]. rewrite Ascii.eqb_sym, H1, IH by exact H2. reflexivity.
Qed.

Lemma split_char_app sep w rest :
  char_in sep w = false ->
  split_char sep (w ++ sep :: rest) = w :: split_char sep rest.
Proof.
  induction w as [|c w IH]; intro H; cbn [app split_char].
  - rewrite Ascii.eqb_refl. reflexivity.
  - unfold char_in in H. cbn [existsb] in H. apply orb_false_iff in H as [H1 H2].
    rewrite Ascii.eqb_sym, H1, IH by exact H2. reflexivity.
Qed.

Theorem split_join sep ws :
  ws <> [] -> forallb (fun w => negb (char_in sep w)) ws = true ->
  split_char sep (join [sep] ws) = ws.
Proof.
  intros Hne H. induction ws as [|w ws IH]; [contradiction|].
  cbn [forallb] in H. apply andb_true_iff in H as [H1 H2].
  apply negb_true_iff in H1.
  destruct ws as [|w' ws].
  - cbn [join]. apply split_char_no_sep; exact H1.
  - change (join [sep] (w :: w' :: ws)) with (w ++ sep :: join [sep] (w' :: ws)).
    rewrite split_char_app by exact H1. rewrite IH; [reflexivity|discriminate|exact H2].
Qed.

Lemma split_char_pieces sep s :
  forallb (fun w => negb (char_in sep w)) (split_char sep s) = true.
Proof.
  induction s as [|c s IH]; [reflexivity|].
  cbn [split_char]. destruct (Ascii.eqb c sep) eqn:E.
  - cbn [forallb]. exact IH.
  - destruct (split_char sep s) as [|w ws] eqn:W; cbn [forallb] in *.
    + unfold char_in. cbn [existsb]. rewrite Ascii.eqb_sym, E. reflexivity.
    + apply andb_true_iff in IH as [H1 H2]. rewrite H2, andb_true_r.
      unfold char_in in *. cbn [existsb]. rewrite Ascii.eqb_sym, E. exact H1.
Qed.

Lemma split_char_length sep s :
  length (split_char sep s) = S (count_char sep s).
Proof.
  induction s as [|c s IH]; [reflexivity|].
  cbn [split_char]. unfold count_char in *. cbn [filter]. rewrite Ascii.eqb_sym.
  destruct (Ascii.eqb sep c) eqn:E; cbn [length].
  - rewrite IH. reflexivity.
  - destruct (split_char sep s) as [|w ws] eqn:W; cbn [length] in *.
    + discriminate IH.
    + exact IH.
Qed.

Lemma count_char_app c a b : count_char c (a ++ b) = count_char c a + count_char c b.
Proof. unfold count_char. rewrite filter_app, app_length. reflexivity. Qed.

Lemma count_char_not_in c s : char_in c s = false -> count_char c s = 0.
Proof.
  unfold char_in, count_char. induction s as [|d s IH]; [reflexivity|]. cbn [existsb filter].
  intro H. apply orb_false_iff in H as [H1 H2]. rewrite H1. apply IH; exact H2.
Qed.

Lemma char_in_app c a b : char_in c (a ++ b) = char_in c a || char_in c b.
Proof. unfold char_in. apply existsb_app. Qed.

Lemma digits_no_char c s :
  is_digit c = false -> forallb is_digit s = true -> char_in c s = false.
Proof.
  intros Hc. induction s as [|d s IH]; [reflexivity|].
  cbn [forallb]. unfold char_in. cbn [existsb]. intro H. apply andb_true_iff in H as [H1 H2].
  apply orb_false_iff. split.
  - destruct (Ascii.eqb c d) eqn:E; [|reflexivity].
    apply Ascii.eqb_eq in E; subst. congruence.
  - apply IH; exact H2.
Qed.
