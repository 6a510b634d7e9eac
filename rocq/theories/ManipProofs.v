(** Lemmas about the lines of manipulators. *)
From Coq Require Import Lia Sorting.Sorted.
From Verif Require Import PyStr PyStrProofs LayoutModel TextModel SpineModel SpineProofs SpineProofs2 ManipModel.

(** ** How such a line is read *)

(** [reads toks xs ys]: a line [toks], read over the open spines [xs], leaves the spines [ys];
    merged spines belong together. *)
Inductive reads {A : Type} : list str -> list A -> list A -> Prop :=
| reads_nil : reads [] [] []
| reads_keep t ts x xs ys : plain t -> reads ts xs ys -> reads (t :: ts) (x :: xs) (x :: ys)
| reads_split ts x xs ys : reads ts xs ys -> reads (S_ "*^" :: ts) (x :: xs) (x :: x :: ys)
| reads_merge k ts x xs ys : 2 <= k -> hd_error ts <> Some (S_ "*v") -> reads ts xs ys ->
    reads (repeat (S_ "*v") k ++ ts) (repeat x k ++ xs) (x :: ys).
Inductive reads_lines {A : Type} : list (list str) -> list A -> list A -> Prop :=
| reads_none xs : reads_lines [] xs xs
| reads_more l ls xs ys zs : reads l xs ys -> reads_lines ls ys zs -> reads_lines (l :: ls) xs zs.

Lemma reads_length {A} toks (xs ys : list A) : reads toks xs ys -> length toks = length xs.
Proof.
  induction 1; cbn; try lia. rewrite !app_length, !repeat_length. lia.
Qed.

(** It is how the importer reads it. *)
Lemma skipn_S_nth {A} (d : A) i l x r : skipn i l = x :: r -> nth i l d = x /\ skipn (S i) l = r.
Proof.
  revert l. induction i as [|i IH]; intros [|y l] E; cbn in E; try discriminate.
  - injection E as -> ->. auto.
  - apply IH in E. exact E.
Qed.
Lemma skipn_plus {A} i k (l : list A) : skipn k (skipn i l) = skipn (k + i) l.
Proof. revert l. induction i as [|i IH]; intros l; [rewrite Nat.add_0_r; reflexivity|]. destruct l as [|x l]; [rewrite !skipn_nil; reflexivity|]. rewrite Nat.add_succ_r. cbn. apply IH. Qed.

Lemma reads_adjust ln dt si toks xs ys : reads toks xs ys -> forall i s r,
  a_skip s = false -> a_merge s = 0 -> skipn i dt = xs ->
  adjust_loop ln dt si toks i s = Some r -> a_type r = a_type s ++ ys.
Proof.
  induction 1 as [|t ts x xs ys P R IH|ts x xs ys R IH|k ts x xs ys K H R IH]; intros i s r Hs Hm HX HA.
  - cbn in HA. injection HA as <-. rewrite app_nil_r. reflexivity.
  - rewrite adjust_cons in HA; [|exact Hs|exact Hm].
    unfold adjust_token in HA. rewrite (kind_plain t P) in HA. cbv beta iota zeta in HA.
    destruct (skipn_S_nth [] i dt x xs HX) as (N & S'). apply IH in HA; [|reflexivity|exact Hm|exact S']. rewrite HA. cbn [a_type]. rewrite <- app_assoc. f_equal. cbn [app]. f_equal. exact N.
  - rewrite adjust_cons in HA; [|exact Hs|exact Hm].
    unfold adjust_token in HA. change (kind (S_ "*^")) with KSplit in HA. cbv beta iota zeta in HA.
    destruct (skipn_S_nth [] i dt x xs HX) as (N & S'). apply IH in HA; [|reflexivity|exact Hm|exact S']. rewrite HA. cbn [a_type]. rewrite <- app_assoc. f_equal. cbn [app]. do 2 (f_equal; try exact N).
  - rewrite adjust_merge in HA by assumption.
    destruct (getMergedSpineInfo si i (k - 1)) as [lab|]; [|discriminate]. apply IH in HA; [|reflexivity|reflexivity|].
    + rewrite HA. cbn [a_type]. rewrite <- app_assoc. cbn [app]. destruct k as [|k]; [lia|]. cbn in HX.
      destruct (skipn_S_nth [] i dt x _ HX) as (N & _). f_equal. f_equal. exact N.
    + rewrite <- skipn_plus, HX. rewrite <- (repeat_length x k) at 1. rewrite skipn_app, skipn_all, Nat.sub_diag. reflexivity.
Qed.

Lemma manip_free {A} toks (xs ys : list A) : reads toks xs ys -> existsb isManipulatorToken toks = false -> xs = ys.
Proof.
  induction 1 as [|t ts x xs ys P R IH|ts x xs ys R IH|k ts x xs ys K H R IH]; cbn [existsb]; intros E.
  - reflexivity.
  - apply Bool.orb_false_elim in E. destruct E as (_ & E). rewrite (IH E). reflexivity.
  - discriminate.
  - destruct k as [|k]; [lia|]. cbn in E. discriminate.
Qed.
Lemma reads_importer ln toks st st' ys : reads toks (s_type st) ys -> spine_line ln toks st = Some st' -> s_type st' = ys.
Proof.
  intros R. unfold spine_line. rewrite (reads_length _ _ _ R), Nat.eqb_refl. cbn [negb].
  destruct (existsb isManipulatorToken toks) eqn:E.
  - unfold adjustSpines. destruct (adjust_loop _ _ _ _ _ _) as [r|] eqn:HA; [|discriminate]. intros X. injection X as <-. cbn.
    rewrite (reads_adjust ln _ _ _ _ _ R 0 (mkAdj false 0 [] [] (s_tracks st)) r eq_refl eq_refl eq_refl HA). reflexivity.
  - intros X. injection X as <-. exact (manip_free _ _ _ R E).
Qed.

(** ** Tokens *)

Definition tok_val (t : str) : nat := if counted_split t then N.to_nat (split_count t) else if str_eqb t (S_ "*^") then 2 else 1.
Definition value (l : list str) : nat := list_sum (map tok_val l).
Definition growing_tok (t : str) : Prop := t = S_ "*" \/ t = S_ "*^" \/ exists n, 3 <= n /\ t = count_token n.
Definition merging_row (a m : nat) : list str := repeat (S_ "*") a ++ repeat (S_ "*v") m.

Lemma value_app a b : value (a ++ b) = value a + value b.
Proof. unfold value. rewrite map_app. apply list_sum_app. Qed.
Lemma value_cons t l : value (t :: l) = tok_val t + value l.
Proof. reflexivity. Qed.
Lemma value_stars n : value (repeat (S_ "*") n) = n.
Proof. induction n; [reflexivity|]. cbn [repeat]. rewrite value_cons, IHn. reflexivity. Qed.
Lemma value_splits n : value (repeat (S_ "*^") n) = 2 * n.
Proof. induction n; [reflexivity|]. cbn [repeat]. rewrite value_cons, IHn. change (tok_val (S_ "*^")) with 2. lia. Qed.
Lemma value_merges n : value (repeat (S_ "*v") n) = n.
Proof. induction n; [reflexivity|]. cbn [repeat]. rewrite value_cons, IHn. reflexivity. Qed.

Lemma count_token_facts n : 3 <= n -> starts_with (S_ "*^") (count_token n) = true /\ counted_split (count_token n) = true
  /\ split_count (count_token n) = N.of_nat n /\ tok_val (count_token n) = n.
Proof.
  intros H. unfold count_token.
  assert (SW : starts_with (S_ "*^") (S_ "*^" ++ show_N (N.of_nat n)) = true) by reflexivity.
  assert (CS : counted_split (S_ "*^" ++ show_N (N.of_nat n)) = true).
  { unfold counted_split. rewrite SW. cbn [andb]. destruct (show_N_cons (N.of_nat n)) as (c & t & E & D).
    rewrite E. exact D. }
  assert (SC : split_count (S_ "*^" ++ show_N (N.of_nat n)) = N.of_nat n).
  { unfold split_count. change (skipn 2 (S_ "*^" ++ show_N (N.of_nat n))) with (show_N (N.of_nat n)).
    rewrite span_all by (apply show_N_digits). apply parse_show_N. }
  repeat split; auto. unfold tok_val. rewrite CS, SC. apply Nat2N.id.
Qed.
Lemma show_pred n : 4 <= n -> S_ "*^" ++ show_N (N.of_nat n - 1) = count_token (n - 1).
Proof. intros H. unfold count_token. do 2 f_equal. lia. Qed.

Lemma growing_not_merge t : growing_tok t -> t <> S_ "*v".
Proof. intros [->|[->|(n & _ & ->)]]; discriminate. Qed.
Lemma tok_val_pos t : growing_tok t -> 1 <= tok_val t.
Proof. intros [->|[->|(n & H & ->)]]; [cbn; lia|cbn; lia|]. destruct (count_token_facts n H) as (_ & _ & _ & ->). lia. Qed.
Lemma value_len l : Forall growing_tok l -> length l <= value l.
Proof. induction 1; [cbn; lia|]. rewrite value_cons. pose proof (tok_val_pos x H). cbn [length]. lia. Qed.

(** ** Rows *)

Definition plain_row (l : list str) : Prop := Forall (fun t => t = S_ "*" \/ t = S_ "*^") l.
(** A row, its number of spines before and after. *)
Inductive row_ok : nat -> nat -> list str -> Prop :=
| row_grow l : l <> [] -> plain_row l -> row_ok (length l) (value l) l
| row_merge a m : 2 <= m -> row_ok (a + m) (a + 1) (merging_row a m).

Lemma plain_growing l : plain_row l -> Forall growing_tok l.
Proof. apply Forall_impl. intros t [->| ->]; [left|right; left]; reflexivity. Qed.
Lemma plain_uncounted l : plain_row l -> existsb counted_split l = false.
Proof. induction 1 as [|t l [->| ->] _ IH]; cbn; auto. Qed.
Lemma uncounted_plain l : Forall growing_tok l -> existsb counted_split l = false -> plain_row l.
Proof.
  induction 1 as [|t l G _ IH]; cbn; intros E; [constructor|]. apply Bool.orb_false_elim in E. destruct E as (E1 & E2).
  constructor; [|apply IH; exact E2]. destruct G as [->|[->|(n & H & ->)]]; [left; reflexivity|right; reflexivity|].
  destruct (count_token_facts n H) as (_ & C & _). rewrite C in E1. discriminate.
Qed.
Lemma merging_uncounted a m : existsb counted_split (merging_row a m) = false.
Proof. unfold merging_row. rewrite existsb_app. induction a; cbn; [|exact IHa]. induction m; cbn; auto. Qed.
Lemma stars_ok n : 1 <= n -> row_ok n n (repeat (S_ "*") n).
Proof.
  intros H. assert (R : row_ok (length (repeat (S_ "*") n)) (value (repeat (S_ "*") n)) (repeat (S_ "*") n)).
  { apply row_grow; [destruct n; [lia|discriminate]|]. apply Forall_forall. intros t I. apply repeat_spec in I. left. exact I. }
  rewrite repeat_length, value_stars in R. exact R.
Qed.

Lemma last_repeat {A} (x d : A) n : 1 <= n -> last (repeat x n) d = x.
Proof. induction n as [|[|n] IH]; intros H; [lia|reflexivity|]. change (last (repeat x (S n)) d = x). apply IH. lia. Qed.
Lemma last_app_r {A} (d : A) l r : r <> [] -> last (l ++ r) d = last r d.
Proof. intros N. induction l as [|x l IH]; [reflexivity|]. cbn. rewrite IH. destruct (l ++ r) eqn:E; [|reflexivity]. destruct l; cbn in E; [contradiction|discriminate]. Qed.
Lemma last_in {A} (d : A) l : l <> [] -> In (last l d) l.
Proof. induction l as [|x [|y l] IH]; intros N; [contradiction|left; reflexivity|]. right. apply IH. discriminate. Qed.
Lemma is_merge_iff t : is_merge t = true <-> t = S_ "*v".
Proof. unfold is_merge. apply str_eqb_eq. Qed.

Lemma merging_last a m : 1 <= m -> is_merge (last (merging_row a m) []) = true.
Proof.
  intros H. unfold merging_row. rewrite last_app_r by (destruct m; [lia|discriminate]). rewrite last_repeat by exact H. reflexivity.
Qed.
Lemma growing_last l : Forall growing_tok l -> is_merge (last l []) = false.
Proof.
  intros F. destruct l as [|x l]; [reflexivity|]. assert (I : In (last (x :: l) []) (x :: l)) by (apply last_in; discriminate).
  rewrite Forall_forall in F. specialize (F _ I). destruct (is_merge (last (x :: l) [])) eqn:E; [|reflexivity].
  apply is_merge_iff in E. exfalso. exact (growing_not_merge _ F E).
Qed.
Lemma row_positive n n' l : row_ok n n' l -> 1 <= n /\ 1 <= n' /\ length l = n /\ l <> [].
Proof.
  intros [l' N P|a m H].
  - pose proof (value_len _ (plain_growing _ P)). destruct l'; [contradiction|]. cbn [length] in *. repeat split; auto; try lia.
  - unfold merging_row. rewrite app_length, !repeat_length. repeat split; try lia. intros E. apply app_eq_nil in E. destruct E as (_ & E). destruct m; [lia|discriminate].
Qed.

(** ** The tokens of one staff *)

Definition before (x : pair) : nat := one_up (pr_before x).
Definition after (x : pair) : nat := one_up (pr_after x).
(** The staff loses voices; gains voices; gains some for which one split of each is not enough. *)
Definition merges (x : pair) : Prop := after x < before x.
Definition grows (x : pair) : Prop := before x < after x.
Definition grows_in_steps (x : pair) : Prop := before x + 1 < after x /\ after x <> 2 * before x.

Definition row_start (x : pair) : list str :=
  manip_tokens (before x) (after x) ++ repeat (S_ "*") (pr_before x - length (manip_tokens (before x) (after x))).

Lemma forall_repeat {A} (P : A -> Prop) x n : P x -> Forall P (repeat x n).
Proof. intros H. apply Forall_forall. intros y I. apply repeat_spec in I. subst. exact H. Qed.

Lemma counted_star n : existsb counted_split (repeat (S_ "*") n) = false.
Proof. induction n; cbn; auto. Qed.
Lemma counted_splits n : existsb counted_split (repeat (S_ "*^") n) = false.
Proof. induction n; cbn; auto. Qed.

Lemma row_start_spec x :
  (merges x /\ exists a m, 2 <= m /\ row_start x = merging_row a m /\ before x = a + m /\ after x = a + 1)
  \/ (~ merges x /\ Forall growing_tok (row_start x) /\ length (row_start x) = before x /\ value (row_start x) = after x
      /\ (existsb counted_split (row_start x) = true <-> grows_in_steps x)).
Proof.
  assert (PB : pr_before x = before x \/ (before x = 1 /\ pr_before x = 0)) by (unfold before, one_up; lia).
  assert (B1 : 1 <= before x) by (unfold before, one_up; lia). assert (A1 : 1 <= after x) by (unfold after, one_up; lia).
  unfold row_start, merges, grows_in_steps. set (b := before x) in *. set (a := after x) in *. clearbody a b.
  unfold manip_tokens. destruct (b =? a) eqn:E1; [apply Nat.eqb_eq in E1|apply Nat.eqb_neq in E1].
  - right. subst a. cbn [length]. split; [lia|]. split; [constructor; [left; reflexivity|apply forall_repeat; left; reflexivity]|].
    split; [cbn; rewrite repeat_length; lia|]. split; [cbn [app]; rewrite value_cons, value_stars; cbn; lia|].
    cbn [app existsb]. rewrite counted_star. split; [intros X; discriminate|lia].
  - destruct (b <? a) eqn:E2; [apply Nat.ltb_lt in E2|apply Nat.ltb_ge in E2].
    + right. split; [lia|]. destruct (a =? 2 * b) eqn:E3; [apply Nat.eqb_eq in E3|apply Nat.eqb_neq in E3].
      * rewrite repeat_length. assert (Z : pr_before x - b = 0) by lia. rewrite Z. cbn [repeat]. rewrite app_nil_r.
        split; [apply forall_repeat; right; left; reflexivity|]. rewrite repeat_length, value_splits, counted_splits.
        repeat split; try lia; intros X; try discriminate; lia.
      * replace (0 <? b) with true by (symmetry; apply Nat.ltb_lt; lia). cbn [andb].
        destruct (2 * b <? a - b) eqn:E4; [apply Nat.ltb_lt in E4|apply Nat.ltb_ge in E4].
        -- replace (2 <? a - (b - 1) * 2) with true by (symmetry; apply Nat.ltb_lt; lia).
           destruct (count_token_facts (a - (b - 1) * 2) ltac:(lia)) as (_ & C & _ & V).
           rewrite app_length, repeat_length. cbn [length]. assert (Z : pr_before x - (b - 1 + 1) = 0) by lia. rewrite Z. cbn [repeat]. rewrite app_nil_r.
           split; [apply Forall_app; split; [apply forall_repeat; right; left; reflexivity|constructor; [|constructor]; right; right; exists (a - (b - 1) * 2); split; [lia|reflexivity]]|].
           rewrite app_length, repeat_length, value_app, value_splits, value_cons, V, existsb_app, counted_splits. cbn [length existsb value map list_sum fold_right]. rewrite C.
           cbn. repeat split; lia.
        -- rewrite app_length, repeat_length. cbn [length].
           assert (PAD : pr_before x - (b - (a - b) + 1) = b - (b - (a - b) + 1)) by lia. rewrite PAD. clear PAD.
           destruct (1 <? a - b) eqn:E5; [apply Nat.ltb_lt in E5|apply Nat.ltb_ge in E5].
           ++ destruct (count_token_facts (a - b + 1) ltac:(lia)) as (_ & C & _ & V).
              split; [apply Forall_app; split; [apply Forall_app; split; [apply forall_repeat; left; reflexivity|constructor; [|constructor]; right; right; exists (a - b + 1); split; [lia|reflexivity]]|apply forall_repeat; left; reflexivity]|].
              rewrite !app_length, !repeat_length, !value_app, !value_stars, value_cons, V, !existsb_app, counted_star. cbn [length existsb value map list_sum fold_right]. rewrite C.
              cbn. repeat split; lia.
           ++ split; [apply Forall_app; split; [apply Forall_app; split; [apply forall_repeat; left; reflexivity|constructor; [|constructor]; right; left; reflexivity]|apply forall_repeat; left; reflexivity]|].
              rewrite !app_length, !repeat_length, !value_app, !value_stars, value_cons, !existsb_app, !counted_star. change (tok_val (S_ "*^")) with 2. cbn [length existsb value map list_sum fold_right].
              cbn. split; [lia|]. split; [lia|]. split; [intros X; discriminate|lia].
    + left. split; [lia|]. exists (b - (b - a + 1)), (b - a + 1). split; [lia|]. split; [|lia].
      rewrite app_length, !repeat_length. assert (Z : pr_before x - (b - (b - a + 1) + (b - a + 1)) = 0) by lia. rewrite Z. cbn [repeat]. rewrite app_nil_r. reflexivity.
Qed.

(** ** Splitting in steps *)

Lemma starts_iff_growing t : growing_tok t -> starts_with (S_ "*^") t = negb (str_eqb t (S_ "*")).
Proof. intros [->|[->|(n & H & ->)]]; reflexivity. Qed.

(** One round over a staff that does not merge. *)
Lemma adjust_growing n : forall l, n <= length l -> Forall growing_tok l ->
  exists new cur, adjust_staff n l = (new, cur) /\ length new = n /\ plain_row new /\ Forall growing_tok cur
    /\ length cur = value new + (length l - n) /\ value cur = value l.
Proof.
  induction n as [|n IH]; intros l L F.
  - exists [], l. repeat split; auto; [constructor|]. cbn. lia.
  - destruct l as [|t r]; [cbn in L; lia|]. inversion F as [|? ? G FR]; subst. cbn [adjust_staff]. rewrite (starts_iff_growing t G).
    destruct (str_eqb t (S_ "*")) eqn:E; cbn [negb].
    + apply str_eqb_eq in E. subst t. destruct (IH r ltac:(cbn in L; lia) FR) as (new & cur & -> & L1 & P & G1 & L2 & V).
      exists (S_ "*" :: new), (S_ "*" :: cur). rewrite !value_cons, V. split; [reflexivity|]. cbn [length]. change (tok_val (S_ "*")) with 1.
      split; [lia|]. split; [constructor; auto|]. split; [constructor; auto|]. lia.
    + set (put := if counted_split t then _ else _).
      assert (PUT : growing_tok put /\ S (tok_val put) = tok_val t).
      { unfold put. destruct G as [->|[->|(k & H & ->)]]; [discriminate|split; [left; reflexivity|reflexivity]|].
        destruct (count_token_facts k H) as (_ & C & SC & V). rewrite C, SC, V.
        destruct (N.of_nat k <=? 3)%N eqn:K; [apply N.leb_le in K|apply N.leb_gt in K].
        - split; [right; left; reflexivity|]. change (tok_val (S_ "*^")) with 2. lia.
        - rewrite show_pred by lia. split; [right; right; exists (k - 1); split; [lia|reflexivity]|].
          destruct (count_token_facts (k - 1) ltac:(lia)) as (_ & _ & _ & ->). lia. }
      destruct PUT as (PG & PV). destruct (IH (put :: r) ltac:(cbn in *; lia) ltac:(constructor; assumption)) as (new & cur & -> & L1 & P & G1 & L2 & V).
      exists (S_ "*^" :: new), (S_ "*" :: cur). rewrite !value_cons, V, value_cons. split; [reflexivity|]. cbn [length] in *.
      change (tok_val (S_ "*^")) with 2. change (tok_val (S_ "*")) with 1.
      split; [lia|]. split; [constructor; [right; reflexivity|exact P]|]. split; [constructor; [left; reflexivity|exact G1]|]. lia.
Qed.
(** With a token that asks for three or more, some token of the staff is split. *)
Lemma adjust_progress n : forall l, n <= length l -> existsb counted_split (firstn n l) = true -> existsb (str_eqb (S_ "*^")) (fst (adjust_staff n l)) = true.
Proof.
  induction n as [|n IH]; intros l L E; [discriminate|]. destruct l as [|t r]; [discriminate|]. cbn [firstn existsb] in E. cbn [adjust_staff].
  destruct (starts_with (S_ "*^") t) eqn:SW.
  - destruct (adjust_staff n _) as (new, cur). reflexivity.
  - assert (C : counted_split t = false) by (unfold counted_split; rewrite SW; reflexivity). rewrite C in E. cbn in E.
    specialize (IH r ltac:(cbn in L; lia) E). destruct (adjust_staff n r) as (new, cur). cbn [fst existsb] in *. rewrite IH. apply Bool.orb_true_r.
Qed.
Lemma plain_value l : plain_row l -> existsb (str_eqb (S_ "*^")) l = true -> length l < value l.
Proof.
  induction 1 as [|t l [->| ->] P IH]; cbn [existsb]; intros E; [discriminate| |].
  - change (str_eqb (S_ "*^") (S_ "*")) with false in E. cbn in E. rewrite value_cons. change (tok_val (S_ "*")) with 1. specialize (IH E). cbn [length]. lia.
  - rewrite value_cons. change (tok_val (S_ "*^")) with 2. pose proof (value_len l (plain_growing _ P)). cbn [length]. lia.
Qed.
(** A staff that merges waits. *)
Lemma adjust_stay l : Forall (fun t => starts_with (S_ "*^") t = false) l -> adjust_staff (length l) l = (repeat (S_ "*") (length l), l).
Proof. induction 1 as [|t l E _ IH]; [reflexivity|]. cbn [length adjust_staff]. rewrite E, IH. reflexivity. Qed.
Lemma merging_stay a m : adjust_staff (length (merging_row a m)) (merging_row a m) = (repeat (S_ "*") (length (merging_row a m)), merging_row a m).
Proof. apply adjust_stay. unfold merging_row. apply Forall_app. split; apply forall_repeat; reflexivity. Qed.

(** ** Lines *)

(** A staff of the line as it stands: what it is for, how many voices are open before, the row. *)
Record gs := mkG { g_pair : pair; g_open : nat; g_row : list str }.
Definition ms_of (g : gs) : mstaff := MS (pr_part (g_pair g)) (pr_sides (g_pair g)) (g_row g).
(** The row leads from the open voices to the wanted ones. *)
Inductive leads : gs -> Prop :=
| leads_grow x l : l <> [] -> ~ merges x -> before x <= length l -> Forall growing_tok l -> value l = after x -> leads (mkG x (length l) l)
| leads_merge x a m : merges x -> 2 <= m -> after x = a + 1 -> leads (mkG x (a + m) (merging_row a m)).

(** The line is readable, and what it does with the numbers of voices. *)
Definition reads_line (base : list pair) (m : list mstaff) (cs cs' : list nat) : Prop :=
  find_pair ends_merging m = None
  /\ exists t : list (pair * list str * nat * nat),
       m = map (fun z => let '(x, l, n, n') := z in MS (pr_part x) (pr_sides x) l) t
       /\ base = map (fun z => let '(x, l, n, n') := z in x) t
       /\ cs = map (fun z => let '(x, l, n, n') := z in n) t /\ cs' = map (fun z => let '(x, l, n, n') := z in n') t
       /\ Forall (fun z => let '(x, l, n, n') := z in row_ok n n' l) t.
Inductive lines_read (base : list pair) : list (list mstaff) -> list nat -> list nat -> Prop :=
| lines_nil cs : lines_read base [] cs cs
| lines_cons m ms cs cs' cs'' : reads_line base m cs cs' -> lines_read base ms cs' cs'' -> lines_read base (m :: ms) cs cs''.
Lemma lines_app base ms ms' cs cs' cs'' : lines_read base ms cs cs' -> lines_read base ms' cs' cs'' -> lines_read base (ms ++ ms') cs cs''.
Proof. induction 1 as [|m ms a b c R L IH]; intros H; [exact H|]. cbn. econstructor; [exact R|apply IH; exact H]. Qed.

Lemma find_pair_map {A B} (f : B -> bool) (h : A -> B) l :
  find_pair f (map h l) = match find_pair (fun x => f (h x)) l with
                          | Some (pre, a, b, post) => Some (map h pre, h a, h b, map h post)
                          | None => None
                          end.
Proof.
  induction l as [|x t IH]; [reflexivity|]. destruct t as [|y r]; [reflexivity|]. cbn [map] in *. cbn [find_pair].
  destruct (f (h x) && f (h y)); [reflexivity|]. cbn [find_pair] in IH. rewrite IH.
  destruct (match r with [] => _ | _ :: _ => _ end) as [[[[pre a] b] post]|]; reflexivity.
Qed.
Lemma find_pair_some {A} (f : A -> bool) l pre a b post : find_pair f l = Some (pre, a, b, post) ->
  l = pre ++ a :: b :: post /\ f a = true /\ f b = true /\ find_pair f (pre ++ [a]) = None.
Proof.
  revert pre. induction l as [|x t IH]; intros pre E; [discriminate|]. destruct t as [|y r]; [discriminate|]. cbn [find_pair] in E.
  destruct (f x && f y) eqn:P.
  - injection E as <- <- <- <-. apply andb_prop in P. destruct P. auto.
  - destruct (find_pair f (y :: r)) as [[[[pre' a'] b'] post']|] eqn:Q; [|cbn [find_pair] in Q; rewrite Q in E; discriminate].
    cbn [find_pair] in Q. rewrite Q in E. injection E as <- <- <- <-. destruct (IH pre' eq_refl) as (E1 & F1 & F2 & N). rewrite E1. repeat split; auto.
    cbn [app]. destruct pre' as [|z pre'].
    + cbn [app] in *. cbn [find_pair]. injection E1 as <- _. rewrite P. reflexivity.
    + cbn [app] in *. injection E1 as <- _. cbn [find_pair] in *. rewrite P, N. reflexivity.
Qed.
Lemma find_pair_none {A} (f : A -> bool) l : find_pair f l = None <-> forall u x y w, l = u ++ x :: y :: w -> f x && f y = false.
Proof.
  split.
  - intros E u. revert l E. induction u as [|z u IH]; intros l E x y w ->.
    + cbn [app find_pair] in E. destruct (f x && f y); [discriminate|reflexivity].
    + apply (IH (u ++ x :: y :: w)) with (w := w); [|reflexivity]. cbn [app] in E.
      destruct (u ++ x :: y :: w) as [|q r] eqn:Q; [destruct u; discriminate|]. cbn [find_pair] in *.
      destruct (f z && f q); [discriminate|]. destruct (match r with [] => _ | _ => _ end) as [[[[? ?] ?] ?]|]; [discriminate|reflexivity].
  - intros H. induction l as [|x t IH]; [reflexivity|]. destruct t as [|y r]; [reflexivity|]. cbn [find_pair].
    rewrite (H [] x y r eq_refl). specialize (IH (fun u a b w E => H (x :: u) a b w (f_equal (cons x) E))). cbn [find_pair] in IH. rewrite IH. reflexivity.
Qed.
Lemma no_pair_all {A} (f : A -> bool) l : (forall x, In x l -> f x = false) -> find_pair f l = None.
Proof. intros H. apply find_pair_none. intros u x y w ->. rewrite (H x) by (apply in_or_app; right; left; reflexivity). reflexivity. Qed.

(** ** The first loop *)

Definition slack (g : gs) : nat := value (g_row g) - length (g_row g).
Definition total (l : list gs) : nat := list_sum (map slack l).

Lemma leads_row g : leads g -> existsb counted_split (g_row g) = false -> row_ok (g_open g) (after (g_pair g)) (g_row g).
Proof.
  intros [x l N M B F V|x a m M H E] C; cbn in *.
  - rewrite <- V. apply row_grow; [exact N|]. apply uncounted_plain; assumption.
  - rewrite E. apply row_merge. exact H.
Qed.

Lemma sum_cons n l : list_sum (n :: l) = n + list_sum l.
Proof. reflexivity. Qed.
(** One round. *)
Definition grown_gs (g : gs) : gs := mkG (g_pair g) (value (fst (adjust_staff (length (g_row g)) (g_row g)))) (snd (adjust_staff (length (g_row g)) (g_row g))).
Lemma grown_leads g : leads g ->
  leads (grown_gs g) /\ row_ok (g_open g) (g_open (grown_gs g)) (fst (adjust_staff (length (g_row g)) (g_row g)))
  /\ plain_row (fst (adjust_staff (length (g_row g)) (g_row g)))
  /\ slack (grown_gs g) <= slack g /\ (existsb counted_split (g_row g) = true -> slack (grown_gs g) < slack g).
Proof.
  intros [x l N M B F V|x a m M H E]; unfold grown_gs; cbn [g_pair g_open g_row].
  - pose proof (adjust_progress (length l) l (le_n _)) as PR. rewrite firstn_all in PR.
    destruct (adjust_growing (length l) l (le_n _) F) as (new & cur & AE & L1 & P & G & L2 & V2). rewrite AE in *. cbn [fst snd] in *.
    rewrite Nat.sub_diag, Nat.add_0_r in L2. pose proof (value_len _ (plain_growing _ P)). pose proof (value_len _ G). pose proof (value_len _ F).
    split.
    + rewrite <- L2. apply leads_grow; auto; [|lia|congruence]. intros ->. cbn in L2. destruct l; [contradiction|]. cbn [length] in *. lia.
    + split; [rewrite <- L1; apply row_grow; [|exact P]; intros ->; destruct l; [contradiction|discriminate]|].
      split; [exact P|]. unfold slack. cbn [g_row]. rewrite V2. split; [lia|].
      intros C. specialize (PR C). pose proof (plain_value new P PR). lia.
  - rewrite merging_stay. cbn [fst snd]. rewrite value_stars. assert (L : length (merging_row a m) = a + m) by (unfold merging_row; rewrite app_length, !repeat_length; reflexivity).
    rewrite L. split; [apply leads_merge; assumption|]. split; [apply stars_ok; lia|]. split; [apply forall_repeat; left; reflexivity|].
    split; [unfold slack; cbn [g_row]; lia|]. rewrite merging_uncounted. discriminate.
Qed.

Lemma plain_not_merging x : plain_row (ms_voices x) -> ends_merging x = false.
Proof. intros P. unfold ends_merging. apply growing_last. apply plain_growing. exact P. Qed.

Lemma expand_spec l : Forall leads l ->
  match expand (map ms_of l) with
  | None => existsb (fun g => existsb counted_split (g_row g)) l = false
  | Some (new, cur) =>
      cur = map ms_of (map grown_gs l) /\ Forall leads (map grown_gs l) /\ total (map grown_gs l) < total l
      /\ reads_line (map g_pair l) new (map g_open l) (map g_open (map grown_gs l))
      /\ existsb (fun x => existsb counted_split (ms_voices x)) new = false
  end.
Proof.
  intros F. unfold expand.
  assert (EX : existsb (fun x => existsb counted_split (ms_voices x)) (map ms_of l) = existsb (fun g => existsb counted_split (g_row g)) l).
  { clear. induction l; cbn; [reflexivity|]. rewrite IHl. reflexivity. }
  rewrite EX. destruct (existsb _ l) eqn:E; [|reflexivity]. rewrite !map_map. split; [reflexivity|]. split; [|split; [|split]].
  - apply Forall_forall. intros g I. apply in_map_iff in I. destruct I as (g0 & <- & I). rewrite Forall_forall in F. apply grown_leads. apply F. exact I.
  - unfold total. rewrite map_map. clear EX. induction F as [|g l G F IH]; [discriminate|]. cbn [map existsb] in *. rewrite !sum_cons.
    destruct (grown_leads g G) as (_ & _ & _ & S1 & S2).
    assert (LE : list_sum (map (fun x => slack (grown_gs x)) l) <= list_sum (map slack l)).
    { clear -F. induction F as [|g l G F IH]; [cbn; lia|]. cbn [map]. rewrite !sum_cons. destruct (grown_leads g G) as (_ & _ & _ & S1 & _). lia. }
    apply Bool.orb_prop in E. destruct E as [E|E]; [specialize (S2 E); lia|specialize (IH E); lia].
  - split.
    + apply no_pair_all. intros x I. apply in_map_iff in I. destruct I as (g & <- & I). rewrite Forall_forall in F. apply plain_not_merging.
      cbn. apply grown_leads. apply F. exact I.
    + exists (map (fun g => (g_pair g, fst (adjust_staff (length (g_row g)) (g_row g)), g_open g, g_open (grown_gs g))) l). rewrite !map_map.
      split; [reflexivity|]. split; [reflexivity|]. split; [reflexivity|]. split; [reflexivity|].
      apply Forall_forall. intros z I. apply in_map_iff in I. destruct I as (g & <- & I). rewrite Forall_forall in F. apply grown_leads. apply F. exact I.
  - clear E EX. induction F as [|g l G F IH]; [reflexivity|]. cbn [map existsb]. rewrite IH. cbn [ms_voices].
    destruct (grown_leads g G) as (_ & _ & P & _). cbn in P |- *. rewrite (plain_uncounted _ P). reflexivity.
Qed.

Lemma expansions_spec fuel : forall l, total l < fuel -> Forall leads l ->
  exists news l', expansions fuel (map ms_of l) = (news, map ms_of l') /\ Forall leads l' /\ map g_pair l' = map g_pair l
    /\ lines_read (map g_pair l) news (map g_open l) (map g_open l')
    /\ existsb (fun g => existsb counted_split (g_row g)) l' = false
    /\ (news = [] -> l' = l) /\ (news <> [] <-> existsb (fun g => existsb counted_split (g_row g)) l = true)
    /\ Forall (fun m => existsb (fun x => existsb counted_split (ms_voices x)) m = false) news.
Proof.
  induction fuel as [|f IH]; intros l T F; [lia|]. cbn [expansions]. pose proof (expand_spec l F) as E. unfold expand in E |- *.
  assert (EX : existsb (fun x => existsb counted_split (ms_voices x)) (map ms_of l) = existsb (fun g => existsb counted_split (g_row g)) l).
  { clear. induction l; cbn; [reflexivity|]. rewrite IHl. reflexivity. }
  rewrite EX in *. destruct (existsb _ l) eqn:C.
  - destruct E as (E1 & F1 & T1 & R1 & U1). rewrite E1 in *. destruct (IH (map grown_gs l) ltac:(lia) F1) as (news & l' & -> & F2 & P2 & R2 & U2 & _ & _ & U3).
    eexists. exists l'. split; [reflexivity|]. split; [exact F2|].
    assert (PM : map g_pair (map grown_gs l) = map g_pair l) by (rewrite map_map; reflexivity). rewrite PM in *.
    split; [exact P2|]. split; [econstructor; [exact R1|exact R2]|]. split; [exact U2|]. split; [discriminate|]. split; [split; [auto|discriminate]|].
    constructor; [exact U1|exact U3].
  - exists [], l. split; [reflexivity|]. split; [exact F|]. split; [reflexivity|]. split; [constructor|]. split; [exact C|]. split; [reflexivity|].
    split; [split; [congruence|discriminate]|constructor].
Qed.

Lemma find_pair_cons {A} (f : A -> bool) x l : f x = false \/ (forall y r, l = y :: r -> f y = false) -> find_pair f l = None -> find_pair f (x :: l) = None.
Proof.
  intros H N. destruct l as [|y r]; [reflexivity|]. cbn [find_pair]. assert (E : f x && f y = false).
  { destruct H as [H|H]; [rewrite H; reflexivity|rewrite (H y r eq_refl); apply Bool.andb_false_r]. }
  rewrite E. cbn [find_pair] in N. rewrite N. reflexivity.
Qed.
Lemma find_pair_ext {A} (f g : A -> bool) l : (forall x, In x l -> f x = g x) -> find_pair f l = find_pair g l.
Proof.
  induction l as [|x t IH]; intros H; [reflexivity|]. destruct t as [|y r]; [reflexivity|]. specialize (IH (fun z I => H z (or_intror I))).
  change (find_pair f (x :: y :: r)) with (if f x && f y then Some ([], x, y, r) else match find_pair f (y :: r) with Some (pre, a, b, post) => Some (x :: pre, a, b, post) | None => None end).
  rewrite (H x (or_introl eq_refl)), (H y (or_intror (or_introl eq_refl))), IH. reflexivity.
Qed.

(** ** The second loop *)

Definition em (g : gs) : bool := ends_merging (ms_of g).
Definition stars_row (g : gs) : Prop := g_row g = repeat (S_ "*") (length (g_row g)).
(** No token is left that asks for three or more. *)
Definition ready (g : gs) : Prop := row_ok (g_open g) (after (g_pair g)) (g_row g).
Definition g_part (g : gs) : nat := pr_part (g_pair g).
Definition settled (g : gs) : gs := mkG (g_pair g) (after (g_pair g)) (repeat (S_ "*") (after (g_pair g))).

Lemma after_pos x : 1 <= after x.
Proof. unfold after, one_up. lia. Qed.
Lemma settled_ready g : ready (settled g).
Proof. unfold ready, settled. cbn. apply stars_ok. apply after_pos. Qed.
Lemma stars_not_merging n : is_merge (last (repeat (S_ "*") n) []) = false.
Proof. apply growing_last. apply forall_repeat. left. reflexivity. Qed.
Lemma settled_em g : em (settled g) = false.
Proof. unfold em, ends_merging, settled. cbn [ms_of ms_voices g_row]. apply stars_not_merging. Qed.
Lemma stars_settled g : ready g -> stars_row g -> g = settled g.
Proof.
  intros R S1. unfold ready in R. unfold stars_row in S1. destruct g as [x n l]. unfold settled. cbn [g_pair g_open g_row] in *.
  destruct (row_positive _ _ _ R) as (P1 & P2 & L & N).
  assert (V : after x = length l).
  { clear -R S1 N. inversion R as [l' N' P E1 E2 E3|a m H E1 E2 E3].
    - rewrite S1 at 1. apply value_stars.
    - exfalso. pose proof (merging_last a m ltac:(lia)) as ML. rewrite E3, S1 in ML. rewrite stars_not_merging in ML. discriminate. }
  f_equal; [lia|]. rewrite V. exact S1.
Qed.

(** *** The pieces of a round *)

Lemma mark_stars b a l : mark_merges b (repeat (S_ "*") a ++ l) = repeat (Some (S_ "*")) a ++ mark_merges b l.
Proof. induction a; cbn; [reflexivity|]. f_equal. exact IHa. Qed.
Lemma mark_seen m : mark_merges true (repeat (S_ "*v") m) = repeat None m.
Proof. induction m; cbn; [reflexivity|]. f_equal. exact IHm. Qed.
Lemma firstn_app_len {A} (l r : list A) n : n = length l -> firstn n (l ++ r) = l.
Proof. intros ->. rewrite firstn_app, Nat.sub_diag, firstn_all. cbn. apply app_nil_r. Qed.
Lemma filter_none_some {A} (x : A) n : filter is_none (repeat (Some x) n) = [].
Proof. induction n; [reflexivity|exact IHn]. Qed.
Lemma filter_none_none {A} n : filter is_none (repeat (@None A) n) = repeat None n.
Proof. induction n; cbn; [reflexivity|]. f_equal. exact IHn. Qed.
Lemma map_repeat' {A B} (f : A -> B) x n : map f (repeat x n) = repeat (f x) n.
Proof. induction n; cbn; [reflexivity|]. f_equal. exact IHn. Qed.
Lemma merged_staff_merging a m : 1 <= m -> merged_staff (merging_row a m) = repeat (S_ "*") (a + 1).
Proof.
  intros H. unfold merged_staff, merging_row. rewrite mark_stars. destruct m as [|m]; [lia|]. cbn [repeat mark_merges].
  change (is_merge (S_ "*v")) with true. cbv iota. rewrite mark_seen. unfold chopped.
  rewrite filter_app, filter_none_some. cbn [app filter is_none]. rewrite filter_none_none, app_length. cbn [length]. rewrite !repeat_length.
  replace (repeat (Some (S_ "*")) a ++ Some (S_ "*") :: repeat None m) with (repeat (Some (S_ "*")) (a + 1) ++ repeat None m).
  - rewrite firstn_app_len by (rewrite repeat_length; lia). rewrite map_repeat'. reflexivity.
  - rewrite repeat_app, <- app_assoc. reflexivity.
Qed.
Lemma merges_kept a m : map (fun t => if is_merge t then t else S_ "*") (merging_row a m) = merging_row a m.
Proof. unfold merging_row. rewrite map_app, !map_repeat'. reflexivity. Qed.
Lemma left_over_merging a m : 1 <= m -> left_over (merging_row a m) = a + 1.
Proof.
  intros H. unfold left_over, merging_row. rewrite filter_app, !app_length, !repeat_length.
  assert (E1 : forall n, filter is_merge (repeat (S_ "*") n) = []) by (induction n; [reflexivity|exact IHn]).
  assert (E2 : forall n, filter is_merge (repeat (S_ "*v") n) = repeat (S_ "*v") n) by (induction n; [reflexivity|cbn; f_equal; exact IHn]).
  rewrite E1, E2, repeat_length. cbn [length]. lia.
Qed.
Lemma left_over_growing l : Forall growing_tok l -> left_over l = length l.
Proof.
  intros F. unfold left_over. assert (E : filter is_merge l = []).
  { induction F as [|t l G F IH]; [reflexivity|]. cbn [filter]. destruct (is_merge t) eqn:M; [|exact IH]. apply is_merge_iff in M. exfalso. exact (growing_not_merge t G M). }
  rewrite E. cbn. lia.
Qed.
Lemma fill_full moved new old : new <> [] -> length old <= length new -> fill_up moved new old = new.
Proof.
  intros N L. unfold fill_up. assert (E : (if moved then new ++ repeat (S_ "*") (length old - length new) else new) = new).
  { destruct moved; [|reflexivity]. replace (length old - length new) with 0 by lia. apply app_nil_r. }
  rewrite E. destruct new; [contradiction|reflexivity].
Qed.
Lemma fill_blank moved old : fill_up moved [] old = repeat (S_ "*") (length old).
Proof. unfold fill_up. destruct moved; cbn [app length]; [|reflexivity]. rewrite Nat.sub_0_r. destruct (repeat _ _); reflexivity. Qed.

Lemma insert_star k n : k <= n -> insert_at k (S_ "*") (repeat (S_ "*") n) = repeat (S_ "*") (S n).
Proof.
  intros H. unfold insert_at. replace n with (k + (n - k)) at 1 2 by lia. rewrite repeat_app, firstn_app_len by (rewrite repeat_length; reflexivity).
  rewrite skipn_app, repeat_length, Nat.sub_diag. cbn [skipn]. rewrite skipn_all2 by (rewrite repeat_length; lia). cbn [app].
  change (S_ "*" :: repeat (S_ "*") (n - k)) with (repeat (S_ "*") (S (n - k))). rewrite <- repeat_app. f_equal. lia.
Qed.
Lemma open_splits_plain prev : plain_row prev -> forall k n, k + length prev <= n -> open_splits prev k (repeat (S_ "*") n) = repeat (S_ "*") (n + (value prev - length prev)).
Proof.
  induction 1 as [|t l [->| ->] P IH]; intros k n H; cbn [open_splits].
  - cbn. f_equal. lia.
  - change (str_eqb (S_ "*") (S_ "*^")) with false. cbv iota. cbn [length] in H. rewrite IH by lia. apply (f_equal (repeat (S_ "*"))). rewrite value_cons. change (tok_val (S_ "*")) with 1. cbn [length]. lia.
  - change (str_eqb (S_ "*^") (S_ "*^")) with true. cbv iota. cbn [length] in H. rewrite insert_star by lia. rewrite IH by lia. apply (f_equal (repeat (S_ "*"))).
    rewrite value_cons. change (tok_val (S_ "*^")) with 2. pose proof (value_len _ (plain_growing _ P)). cbn [length]. lia.
Qed.
Lemma open_splits_none prev : Forall (fun t => str_eqb t (S_ "*^") = false) prev -> forall k cur, open_splits prev k cur = cur.
Proof. induction 1 as [|t l E F IH]; intros k cur; [reflexivity|]. cbn [open_splits]. rewrite E. apply IH. Qed.
Lemma no_split_stars n : Forall (fun t => str_eqb t (S_ "*^") = false) (repeat (S_ "*") n).
Proof. apply forall_repeat. reflexivity. Qed.
Lemma no_split_merging a m : Forall (fun t => str_eqb t (S_ "*^") = false) (merging_row a m).
Proof. apply Forall_app. split; apply forall_repeat; reflexivity. Qed.

(** *** What a round does to each staff *)

Definition goes (p : nat) (g : gs) : bool := g_part g <? p.
Definition rest_of (p : nat) (g : gs) : gs := if goes p g then settled g else g.
Definition mwhen (p : nat) (g : gs) : bool := goes p g && em g.

(** The row of the new line for a staff behind the two. *)
Definition new_row (p : nat) (l : list str) (g : gs) : list str := if goes p g then l else repeat (S_ "*") (length l).
Definition old_row (p : nat) (l : list str) (g : gs) : list str := if goes p g then repeat (S_ "*") (left_over l) else l.

Lemma ready_cases g : ready g -> (em g = true /\ exists a m, 2 <= m /\ g_row g = merging_row a m /\ g_open g = a + m /\ after (g_pair g) = a + 1)
  \/ (em g = false /\ g_row g <> [] /\ plain_row (g_row g) /\ g_open g = length (g_row g) /\ after (g_pair g) = value (g_row g)).
Proof.
  unfold ready, em, ends_merging. destruct g as [x n l]. cbn [g_pair g_open g_row ms_of ms_voices]. intros R. inversion R as [l' N P E1 E2 E3|a m H E1 E2 E3].
  - right. rewrite growing_last by (apply plain_growing; exact P). auto.
  - left. rewrite merging_last by lia. split; [reflexivity|]. exists a, m. auto.
Qed.

Lemma row_new p g : ready g ->
  row_ok (g_open g) (g_open (rest_of p g)) (new_row p (g_row g) g)
  /\ is_merge (last (new_row p (g_row g) g) []) = mwhen p g
  /\ left_over (g_row g) <= length (g_row g) /\ g_row g <> []
  /\ open_splits (new_row p (g_row g) g) 0 (old_row p (g_row g) g) = g_row (rest_of p g)
  /\ (em g = true \/ stars_row g \/ goes p g = false -> old_row p (g_row g) g = g_row (rest_of p g)).
Proof.
  intros R. pose proof (row_positive _ _ _ R) as (P1 & P2 & L & N). unfold new_row, old_row, rest_of, mwhen. destruct (goes p g) eqn:G; cbn [andb].
  - split; [exact R|]. split; [reflexivity|].
    destruct (ready_cases g R) as [(EM & a & m & H & RW & OP & AF)|(EM & NE & PL & OP & AF)].
    + cbn [settled g_row]. rewrite RW, left_over_merging by lia. rewrite open_splits_none by apply no_split_merging. rewrite AF.
      split; [unfold merging_row; rewrite app_length, !repeat_length; lia|]. split; [congruence|]. auto.
    + cbn [settled g_row]. rewrite left_over_growing by (apply plain_growing; exact PL). split; [lia|]. split; [exact NE|].
      rewrite open_splits_plain by (auto; cbn; lia). rewrite AF. pose proof (value_len _ (plain_growing _ PL)). split; [f_equal; lia|].
      intros [C|[C|C]]; [congruence| |discriminate]. f_equal. unfold stars_row in C. rewrite C at 2. rewrite value_stars. reflexivity.
  - split; [rewrite L; apply stars_ok; exact P1|]. split; [apply stars_not_merging|].
    split; [unfold left_over; lia|]. split; [exact N|]. split; [apply open_splits_none; apply no_split_stars|]. reflexivity.
Qed.

(** A staff with its row of the new line, and as it stands afterwards. *)
Definition tri := (gs * list str * gs)%type.
Definition t_now (z : tri) : gs := fst (fst z).
Definition t_row (z : tri) : list str := snd (fst z).
Definition t_next (z : tri) : gs := snd z.
Definition t_line (z : tri) : mstaff := MS (pr_part (g_pair (t_now z))) (pr_sides (g_pair (t_now z))) (t_row z).
Lemma reads_from (T : list tri) : Forall (fun z => row_ok (g_open (t_now z)) (g_open (t_next z)) (t_row z)) T -> find_pair ends_merging (map t_line T) = None ->
  reads_line (map g_pair (map t_now T)) (map t_line T) (map g_open (map t_now T)) (map g_open (map t_next T)).
Proof.
  intros H N. split; [exact N|]. exists (map (fun z => (g_pair (t_now z), t_row z, g_open (t_now z), g_open (t_next z))) T). rewrite !map_map.
  split; [reflexivity|]. split; [reflexivity|]. split; [reflexivity|]. split; [reflexivity|]. apply Forall_forall. intros q I. apply in_map_iff in I. destruct I as (z & <- & I).
  rewrite Forall_forall in H. apply H. exact I.
Qed.

(** A whole round. *)
Definition after_round (pre : list gs) (a b : gs) (post : list gs) : list gs := pre ++ settled a :: b :: map (rest_of (g_part b)) post.
Definition tri_round (pre : list gs) (a b : gs) (post : list gs) : list tri :=
  map (fun g => (g, repeat (S_ "*") (length (g_row g)), g)) pre
  ++ (a, g_row a, settled a) :: (b, repeat (S_ "*") (length (g_row b)), b)
  :: map (fun g => (g, new_row (g_part b) (g_row g) g, rest_of (g_part b) g)) post.
Definition old_round (pre : list gs) (a b : gs) (post : list gs) : list mstaff :=
  map ms_of pre ++ ms_of (settled a) :: ms_of b :: map (fun g => MS (g_part g) (pr_sides (g_pair g)) (old_row (g_part b) (g_row g) g)) post.

Lemma contract_eq G pre a b post : Forall ready G -> find_pair em G = Some (pre, a, b, post) ->
  contract (map ms_of G) = Some (map t_line (tri_round pre a b post), old_round pre a b post).
Proof.
  intros F E. unfold contract. rewrite find_pair_map. change (fun x => ends_merging (ms_of x)) with em. rewrite E.
  destruct (find_pair_some _ _ _ _ _ _ E) as (EG & EA & EB & _). rewrite EG in F. apply Forall_app in F. destruct F as (F1 & F2).
  inversion F2 as [|? ? RA F3]; subst. inversion F3 as [|? ? RB F4]; subst.
  destruct (ready_cases a RA) as [(_ & k & m & H & RW & OP & AF)|(X & _)]; [|congruence].
  assert (LM : length (merging_row k m) = k + m) by (unfold merging_row; rewrite app_length, !repeat_length; reflexivity).
  cbv zeta. unfold tri_round, old_round. cbn [ms_of ms_part ms_sides ms_voices].
  rewrite RW, merges_kept, merged_staff_merging by lia.
  rewrite (fill_full _ (merging_row k m)); [|intros X; rewrite X in LM; cbn in LM; lia|rewrite repeat_length; lia].
  rewrite (fill_full _ (repeat _ _)); [|pose proof (row_positive _ _ _ RB) as (P1 & _ & L & _); rewrite L; destruct (g_open b); [lia|discriminate]|rewrite repeat_length; lia].
  f_equal. f_equal.
  - rewrite map_app, !map_map. cbn [map]. unfold t_line, t_now, t_row. cbn [fst snd]. f_equal; [|f_equal; f_equal].
    + apply map_ext_in. intros g I. cbn. rewrite fill_blank. reflexivity.
    + rewrite !map_map. apply map_ext_in. intros g I. rewrite Forall_forall in F4. specialize (F4 g I). cbn [ms_of ms_part ms_sides ms_voices].
      unfold new_row. change (pr_part (g_pair g) <? pr_part (g_pair b)) with (goes (g_part b) g).
      destruct (row_new (g_part b) g F4) as (_ & _ & LO & NE & _). destruct (goes (g_part b) g); cbn [ms_voices].
      * rewrite fill_full; [reflexivity|exact NE|rewrite repeat_length; exact LO].
      * rewrite fill_blank. reflexivity.
  - f_equal. unfold settled. cbn [ms_of g_pair g_row]. rewrite AF. f_equal. f_equal. rewrite map_map. apply map_ext_in. intros g I. unfold ms_of. cbn [ms_part ms_sides ms_voices].
    unfold old_row. change (pr_part (g_pair g) <? pr_part (g_pair b)) with (goes (g_part b) g). unfold g_part at 2. destruct (goes (g_part b) g); reflexivity.
Qed.

Lemma round_opens pre a b post : Forall ready (a :: post) -> em a = true ->
  performSimpleExpansion (map t_line (tri_round pre a b post)) (old_round pre a b post) = map ms_of (after_round pre a b post).
Proof.
  intros F EA. inversion F as [|? ? RA F4]; subst. unfold performSimpleExpansion, tri_round, old_round, after_round. rewrite !map_app. cbn [map]. rewrite !map_map.
  assert (PRE : forall rest1 rest2, map (fun z => MS (ms_part (snd z)) (ms_sides (snd z)) (open_splits (ms_voices (fst z)) 0 (ms_voices (snd z))))
     (combine (map (fun g => t_line (g, repeat (S_ "*") (length (g_row g)), g)) pre ++ rest1) (map ms_of pre ++ rest2))
     = map ms_of pre ++ map (fun z => MS (ms_part (snd z)) (ms_sides (snd z)) (open_splits (ms_voices (fst z)) 0 (ms_voices (snd z)))) (combine rest1 rest2)).
  { clear. intros r1 r2. induction pre as [|g l IH]; [reflexivity|]. cbn [map app combine fst snd]. rewrite IH. cbn [app]. f_equal. unfold t_line, t_row, t_now. cbn [fst snd ms_of ms_part ms_sides ms_voices].
    rewrite open_splits_none by apply no_split_stars. reflexivity. }
  rewrite PRE. f_equal. cbn [combine map fst snd]. unfold t_line at 1 2, t_row, t_now. cbn [fst snd ms_of ms_part ms_sides ms_voices settled g_pair g_row].
  destruct (ready_cases a RA) as [(_ & k & m & H & RW & OP & AF)|(X & _)]; [|congruence].
  rewrite RW, open_splits_none by apply no_split_merging. rewrite open_splits_none by apply no_split_stars. f_equal. f_equal.
  clear -F4. induction F4 as [|g l R F IH]; [reflexivity|]. cbn [map combine fst snd]. rewrite IH. f_equal. unfold t_line, t_row, t_now. cbn [fst snd ms_part ms_sides ms_voices].
  destruct (row_new (g_part b) g R) as (_ & _ & _ & _ & OS & _). rewrite OS. unfold ms_of, rest_of, g_part, settled. destruct (goes _ g); reflexivity.
Qed.
Lemma round_closed pre a b post : Forall ready post -> (forall g, In g post -> goes (g_part b) g = true -> em g = true \/ stars_row g) ->
  old_round pre a b post = map ms_of (after_round pre a b post).
Proof.
  intros F H. unfold old_round, after_round. rewrite map_app. cbn [map]. f_equal. f_equal. f_equal. rewrite map_map. apply map_ext_in. intros g I.
  rewrite Forall_forall in F. destruct (row_new (g_part b) g (F g I)) as (_ & _ & _ & _ & _ & OS). rewrite OS.
  - unfold ms_of, rest_of, g_part, settled. destruct (goes _ g); reflexivity.
  - destruct (goes (g_part b) g) eqn:E; [|auto]. destruct (H g I E); auto.
Qed.

Lemma settled_pair g : g_pair (settled g) = g_pair g.
Proof. reflexivity. Qed.
Lemma rest_pair p g : g_pair (rest_of p g) = g_pair g.
Proof. unfold rest_of. destruct (goes p g); reflexivity. Qed.
Lemma rest_ready p g : ready g -> ready (rest_of p g).
Proof. intros R. unfold rest_of. destruct (goes p g); [apply settled_ready|exact R]. Qed.
Lemma round_reads pre a b post : Forall ready (pre ++ a :: b :: post) -> em a = true -> find_pair (mwhen (g_part b)) post = None ->
  reads_line (map g_pair (pre ++ a :: b :: post)) (map t_line (tri_round pre a b post)) (map g_open (pre ++ a :: b :: post)) (map g_open (after_round pre a b post)).
Proof.
  intros F EA N. apply Forall_app in F. destruct F as (F1 & F2). inversion F2 as [|? ? RA F3]; subst. inversion F3 as [|? ? RB F4]; subst.
  assert (E1 : map t_now (tri_round pre a b post) = pre ++ a :: b :: post).
  { unfold tri_round. rewrite map_app, map_map. cbn [map]. rewrite map_map. unfold t_now. cbn [fst snd]. rewrite !map_id. reflexivity. }
  assert (E2 : map t_next (tri_round pre a b post) = after_round pre a b post).
  { unfold tri_round, after_round. rewrite map_app, map_map. cbn [map]. rewrite map_map. unfold t_next. cbn [fst snd]. rewrite map_id. reflexivity. }
  rewrite <- E1, <- E2. apply reads_from.
  - unfold tri_round. apply Forall_app. split; [|constructor; [|constructor]].
    + apply Forall_forall. intros z I. apply in_map_iff in I. destruct I as (g & <- & I). unfold t_now, t_next, t_row. cbn [fst snd].
      rewrite Forall_forall in F1. destruct (row_positive _ _ _ (F1 g I)) as (P1 & _ & L & _). rewrite L. apply stars_ok. exact P1.
    + exact RA.
    + unfold t_now, t_next, t_row. cbn [fst snd]. destruct (row_positive _ _ _ RB) as (P1 & _ & L & _). rewrite L. apply stars_ok. exact P1.
    + apply Forall_forall. intros z I. apply in_map_iff in I. destruct I as (g & <- & I). unfold t_now, t_next, t_row. cbn [fst snd].
      rewrite Forall_forall in F4. apply (row_new (g_part b) g (F4 g I)).
  - rewrite find_pair_map. set (f := fun z => ends_merging (t_line z)). unfold tri_round.
    assert (PR : forall l r, find_pair f r = None -> find_pair f (map (fun g => (g, repeat (S_ "*") (length (g_row g)), g)) l ++ r) = None).
    { intros l r NR. induction l as [|g l IH]; [exact NR|]. cbn [map app]. apply find_pair_cons; [|exact IH]. left. unfold f, ends_merging, t_line, t_row. cbn [fst snd ms_voices]. apply stars_not_merging. }
    assert (PO : find_pair f (map (fun g => (g, new_row (g_part b) (g_row g) g, rest_of (g_part b) g)) post) = None).
    { rewrite find_pair_map. replace (find_pair _ post) with (find_pair (mwhen (g_part b)) post); [rewrite N; reflexivity|].
      apply find_pair_ext. intros g I. rewrite Forall_forall in F4. symmetry. apply (row_new (g_part b) g (F4 g I)). }
    rewrite PR; [reflexivity|]. apply find_pair_cons.
    + right. intros y ry E. injection E as <- _. apply stars_not_merging.
    + apply find_pair_cons; [left; apply stars_not_merging|exact PO].
Qed.

(** *** All rounds *)

(** Behind two neighbours that merge, the parts written later than the second have nothing left to do. *)
Fixpoint later_rest (l : list gs) : Prop :=
  match l with
  | x :: t => match t with
              | y :: r => (em x = true -> em y = true -> forall g, In g r -> goes (g_part y) g = true -> stars_row g) /\ later_rest t
              | [] => True
              end
  | [] => True
  end.
Lemma later_rest_cons x l : em x = false -> later_rest l -> later_rest (x :: l).
Proof. intros E H. destruct l as [|y r]; [exact I|]. split; [congruence|exact H]. Qed.
Lemma later_rest_at pre a b post : later_rest (pre ++ a :: b :: post) -> em a = true -> em b = true -> forall g, In g post -> goes (g_part b) g = true -> stars_row g.
Proof.
  induction pre as [|x pre IH]; intros H EA EB; [apply H; assumption|]. apply IH; try assumption. cbn [app] in H.
  destruct (pre ++ a :: b :: post) eqn:E; [destruct pre; discriminate|]. apply H.
Qed.
Lemma later_rest_step pre a b post : later_rest (pre ++ a :: b :: post) -> later_rest (pre ++ settled a :: b :: post).
Proof.
  induction pre as [|x pre IH]; intros H.
  - cbn [app] in *. apply later_rest_cons; [apply settled_em|]. apply H.
  - destruct pre as [|y pre]; cbn [app] in *.
    + split; [intros _ X; rewrite settled_em in X; discriminate|]. apply IH. apply H.
    + split; [|apply IH; apply H]. destruct H as (H & _). intros EX EY g I G. rewrite in_app_iff in I. cbn [In] in I. 
      destruct I as [I|[I|I]]; [apply H; auto; apply in_or_app; left; exact I| |apply H; auto; apply in_or_app; right; right; exact I].
      subst g. unfold stars_row, settled. cbn [g_row]. rewrite repeat_length. reflexivity.
Qed.
Lemma later_rest_low p l : (forall g, In g l -> g_part g <= p) -> (forall g, In g l -> goes p g = true -> stars_row g) -> later_rest l.
Proof.
  induction l as [|x l IH]; intros P S1; [exact I|]. destruct l as [|y r]; [exact I|]. split.
  - intros _ _ g I G. apply S1; [right; right; exact I|]. unfold goes in *. apply Nat.ltb_lt in G. apply Nat.ltb_lt. specialize (P y (or_intror (or_introl eq_refl))). lia.
  - apply IH; intros g I; [apply P|apply S1]; right; exact I.
Qed.
Lemma later_rest_pre pre a B : find_pair em (pre ++ [a]) = None -> later_rest B -> later_rest (pre ++ settled a :: B).
Proof.
  induction pre as [|x pre IH]; intros N H.
  - cbn [app]. apply later_rest_cons; [apply settled_em|exact H].
  - destruct pre as [|y pre]; cbn [app] in *.
    + split; [intros _ X; rewrite settled_em in X; discriminate|]. apply IH; auto.
    + assert (NP : em x && em y = false) by (cbn [find_pair] in N; destruct (em x && em y); [discriminate|reflexivity]).
      split; [intros E1 E2; rewrite E1, E2 in NP; discriminate|]. apply IH; [|exact H].
      cbn [find_pair] in N |- *. rewrite NP in N. destruct (match pre ++ [a] with [] => _ | _ => _ end) as [[[[? ?] ?] ?]|]; [discriminate|reflexivity].
Qed.

Definition merging_count (G : list gs) : nat := length (filter em G).
Lemma merging_count_app a b : merging_count (a ++ b) = merging_count a + merging_count b.
Proof. unfold merging_count. rewrite filter_app. apply app_length. Qed.
Lemma merging_count_cons x l : merging_count (x :: l) = (if em x then 1 else 0) + merging_count l.
Proof. unfold merging_count. cbn [filter]. destruct (em x); reflexivity. Qed.
Lemma merging_count_rest p l : merging_count (map (rest_of p) l) <= merging_count l.
Proof.
  induction l as [|x l IH]; [cbn; lia|]. cbn [map]. rewrite !merging_count_cons. unfold rest_of at 1. destruct (goes p x); [rewrite settled_em|]; destruct (em x); lia.
Qed.
Lemma round_count pre a b post : em a = true -> merging_count (after_round pre a b post) < merging_count (pre ++ a :: b :: post).
Proof.
  intros E. unfold after_round. rewrite !merging_count_app, !merging_count_cons, settled_em, E. pose proof (merging_count_rest (g_part b) post). lia.
Qed.
Lemma round_pairs pre a b post : map g_pair (after_round pre a b post) = map g_pair (pre ++ a :: b :: post).
Proof.
  unfold after_round. rewrite !map_app. cbn [map]. rewrite map_map. f_equal. f_equal. f_equal. apply map_ext. intros g. apply rest_pair.
Qed.
Lemma round_ready pre a b post : Forall ready (pre ++ a :: b :: post) -> Forall ready (after_round pre a b post).
Proof.
  intros F. apply Forall_app in F. destruct F as (F1 & F2). inversion F2 as [|? ? RA F3]; subst. inversion F3 as [|? ? RB F4]; subst.
  apply Forall_app. split; [exact F1|]. constructor; [apply settled_ready|]. constructor; [exact RB|].
  apply Forall_forall. intros g I. apply in_map_iff in I. destruct I as (g0 & <- & I). apply rest_ready. rewrite Forall_forall in F4. apply F4. exact I.
Qed.
Lemma contract_none G : find_pair em G = None -> contract (map ms_of G) = None.
Proof. intros E. unfold contract. rewrite find_pair_map. change (fun x => ends_merging (ms_of x)) with em. rewrite E. reflexivity. Qed.

Definition finished (base : list pair) (G : list gs) (res : list (list mstaff) * list mstaff) : Prop :=
  exists news G', res = (news, map ms_of G') /\ lines_read base news (map g_open G) (map g_open G') /\ Forall ready G' /\ find_pair em G' = None /\ map g_pair G' = base.

Lemma contractions_later base fuel : forall G, merging_count G < fuel -> Forall ready G -> later_rest G -> map g_pair G = base ->
  finished base G (contractions fuel false (map ms_of G)).
Proof.
  induction fuel as [|f IH]; intros G M F L B; [lia|]. cbn [contractions]. destruct (find_pair em G) as [[[[pre a] b] post]|] eqn:E.
  - rewrite (contract_eq G pre a b post F E). destruct (find_pair_some _ _ _ _ _ _ E) as (EG & EA & EB & _). subst G.
    pose proof (later_rest_at pre a b post L EA EB) as ST.
    pose proof F as F'. apply Forall_app in F'. destruct F' as (F1 & F2). inversion F2 as [|? ? RA F3]; subst. inversion F3 as [|? ? RB F4]; subst.
    assert (ID : map (rest_of (g_part b)) post = post).
    { rewrite <- (map_id post) at 2. apply map_ext_in. intros g I. unfold rest_of. destruct (goes (g_part b) g) eqn:G; [|reflexivity]. symmetry. apply stars_settled; [|apply ST; assumption].
      rewrite Forall_forall in F4. apply F4. exact I. }
    rewrite (round_closed pre a b post F4) by (intros g I G; right; apply ST; assumption).
    assert (NP : find_pair (mwhen (g_part b)) post = None).
    { apply no_pair_all. intros g I. unfold mwhen. destruct (goes (g_part b) g) eqn:G; [|reflexivity]. cbn [andb].
      unfold em, ends_merging. cbn [ms_of ms_voices]. rewrite (ST g I G). apply stars_not_merging. }
    pose proof (round_reads pre a b post F EA NP) as RR.
    destruct (IH (after_round pre a b post)) as (news & G' & -> & LR & RD & N2 & P2).
    + pose proof (round_count pre a b post EA). lia.
    + apply round_ready. exact F.
    + unfold after_round. rewrite ID. apply later_rest_step. exact L.
    + apply round_pairs.
    + eexists. exists G'. split; [reflexivity|]. split; [econstructor; [exact RR|exact LR]|]. split; [exact RD|]. split; [exact N2|exact P2].
  - rewrite (contract_none G E). exists [], G. split; [reflexivity|]. split; [constructor|]. auto.
Qed.

(** The first round decides. *)
Lemma contractions_first base fuel opening G : merging_count G < fuel -> Forall ready G -> map g_pair G = base ->
  (forall pre a b post, find_pair em G = Some (pre, a, b, post) ->
     find_pair (mwhen (g_part b)) post = None /\ (opening = true \/ forall g, In g post -> goes (g_part b) g = true -> em g = true \/ stars_row g)
     /\ forall g, In g post -> g_part g <= g_part b) ->
  finished base G (contractions fuel opening (map ms_of G)).
Proof.
  destruct fuel as [|f]; intros M F B H; [lia|]. cbn [contractions]. destruct (find_pair em G) as [[[[pre a] b] post]|] eqn:E.
  - rewrite (contract_eq G pre a b post F E). destruct (find_pair_some _ _ _ _ _ _ E) as (EG & EA & EB & NB). subst G.
    destruct (H pre a b post eq_refl) as (NP & OP & LE). clear H.
    pose proof F as F'. apply Forall_app in F'. destruct F' as (F1 & F2). inversion F2 as [|? ? RA F3]; subst. inversion F3 as [|? ? RB F4]; subst.
    assert (OLD : (if opening then performSimpleExpansion (map t_line (tri_round pre a b post)) (old_round pre a b post) else old_round pre a b post) = map ms_of (after_round pre a b post)).
    { destruct opening; [apply round_opens; [constructor; assumption|exact EA]|]. apply round_closed; [exact F4|]. destruct OP as [OP|OP]; [discriminate|exact OP]. }
    rewrite OLD. pose proof (round_reads pre a b post F EA NP) as RR.
    destruct (contractions_later (map g_pair (pre ++ a :: b :: post)) f (after_round pre a b post)) as (news & G' & -> & LR & RD & N2 & P2).
    + pose proof (round_count pre a b post EA). lia.
    + apply round_ready. exact F.
    + unfold after_round. apply later_rest_pre; [exact NB|]. apply (later_rest_low (g_part b)).
      * intros g [->|I]; [lia|]. apply in_map_iff in I. destruct I as (g0 & <- & I). unfold g_part. rewrite rest_pair. apply LE. exact I.
      * intros g [->|I] G; [unfold goes in G; apply Nat.ltb_lt in G; lia|]. apply in_map_iff in I. destruct I as (g0 & <- & I).
        assert (G0 : goes (g_part b) g0 = true) by (revert G; unfold goes, g_part; rewrite rest_pair; auto). unfold rest_of. rewrite G0.
        unfold stars_row, settled. cbn [g_row]. rewrite repeat_length. reflexivity.
    + apply round_pairs.
    + eexists. exists G'. split; [reflexivity|]. split; [econstructor; [exact RR|exact LR]|]. split; [exact RD|]. split; [exact N2|exact P2].
  - rewrite (contract_none G E). exists [], G. split; [reflexivity|]. split; [constructor|]. auto.
Qed.

(** ** Lines that stay *)

Lemma row_uncounted n n' l : row_ok n n' l -> existsb counted_split l = false.
Proof. intros [l' N P|a m H]; [apply plain_uncounted; exact P|apply merging_uncounted]. Qed.
Definition stable (m : list mstaff) : Prop := find_pair ends_merging m = None /\ existsb (fun x => existsb counted_split (ms_voices x)) m = false.
Lemma reads_stable base m cs cs' : reads_line base m cs cs' -> stable m.
Proof.
  intros (N & t & -> & _ & _ & _ & F). split; [exact N|]. clear N. induction F as [|[[[x l] n] n'] t R F IH]; [reflexivity|]. cbn [map existsb ms_voices].
  rewrite (row_uncounted _ _ _ R), IH. reflexivity.
Qed.
Lemma clean_stable m : stable m -> cleanManipulator m = ([], m).
Proof. intros (N & U). unfold cleanManipulator. cbn [expansions]. unfold expand. rewrite U. cbn [contractions]. unfold contract. rewrite N. reflexivity. Qed.
Lemma cleanup_stable l : Forall stable l -> forall fuel, length l <= fuel -> cleanup fuel l = l.
Proof.
  induction 1 as [|m l M F IH]; intros fuel L; [destruct fuel; reflexivity|]. destruct fuel as [|f]; [cbn in L; lia|]. cbn [cleanup]. rewrite (clean_stable m M). f_equal.
  apply IH. cbn in L. lia.
Qed.
Lemma lines_stable base ms cs cs' : lines_read base ms cs cs' -> Forall stable ms.
Proof. induction 1; constructor; auto. eapply reads_stable. eassumption. Qed.

(** ** From the start *)

Definition start_gs (x : pair) : gs := mkG x (before x) (row_start x).
Lemma start_leads x : leads (start_gs x).
Proof.
  unfold start_gs. destruct (row_start_spec x) as [(M & a & m & H & E & B & A)|(M & G & L & V & _)].
  - rewrite E, B. apply leads_merge; assumption.
  - rewrite <- L. assert (B : 1 <= before x) by (unfold before, one_up; lia). apply leads_grow; auto; [|lia]. intros E. rewrite E in L. cbn in L. lia.
Qed.
Lemma before_pos x : 1 <= before x.
Proof. unfold before, one_up. lia. Qed.
Lemma slack_wanted x : slack (start_gs x) <= list_sum (map token_voices (row_start x)).
Proof.
  unfold slack, start_gs. cbn [g_row]. assert (H : value (row_start x) <= list_sum (map token_voices (row_start x))); [|lia].
  unfold value. induction (row_start x) as [|t l IH]; [reflexivity|]. cbn [map]. rewrite !sum_cons.
  assert (T : tok_val t <= token_voices t) by (unfold tok_val, token_voices; destruct (counted_split t); [lia|]; destruct (str_eqb t _); lia). lia.
Qed.
Lemma first_line l m : manipulatorCheckTwoSlices l = Some m -> matchVoices l m = map ms_of (map start_gs l).
Proof.
  unfold manipulatorCheckTwoSlices. destruct (forallb _ l); [discriminate|]. intros E. injection E as <-. unfold matchVoices. rewrite map_map.
  induction l as [|x l IH]; [reflexivity|]. cbn [map combine fst snd ms_part ms_sides ms_voices]. rewrite IH. reflexivity.
Qed.
Lemma total_wanted l : total (map start_gs l) <= voices_wanted (map ms_of (map start_gs l)).
Proof.
  unfold total, voices_wanted. rewrite !map_map. induction l as [|x l IH]; [reflexivity|]. cbn [map]. rewrite !sum_cons. apply Nat.add_le_mono; [exact (slack_wanted x)|exact IH].
Qed.


(** The staves are listed in the order in which they are written. *)
Definition in_writing_order (l : list pair) : Prop := StronglySorted (fun x y => pr_part y <= pr_part x) l.
(** No two neighbours lose voices. *)
Definition none_beside (l : list pair) : Prop := forall u x y w, l = u ++ x :: y :: w -> ~ (merges x /\ merges y).
(** The condition on the first two neighbours that both lose voices. *)
Definition well_placed (l : list pair) : Prop :=
  forall pre a b post, l = pre ++ a :: b :: post -> merges a -> merges b -> none_beside (pre ++ [a]) ->
    none_beside (filter (fun x => pr_part x <? pr_part b) post)
    /\ (Exists grows_in_steps l \/ forall x, In x post -> pr_part x < pr_part b -> ~ grows x).

Lemma leads_em g : leads g -> (em g = true <-> merges (g_pair g)).
Proof.
  intros [x l N M B F V|x a m M H E]; unfold em, ends_merging; cbn [ms_of ms_voices g_row g_pair].
  - rewrite growing_last by exact F. split; [discriminate|contradiction].
  - rewrite merging_last by lia. tauto.
Qed.
Lemma leads_still g : leads g -> ready g -> ~ merges (g_pair g) -> ~ grows (g_pair g) -> stars_row g.
Proof.
  intros [x l N M B F V|x a m M H E]; cbn [g_pair]; intros R NM NG; [|contradiction].
  unfold stars_row. cbn [g_row]. unfold merges, grows in *. assert (V2 : value l = length l) by (pose proof (value_len l F); lia).
  clear -F V2. induction F as [|t l G F IH]; [reflexivity|]. rewrite value_cons in V2. pose proof (value_len l F). pose proof (tok_val_pos t G). cbn [length repeat] in *. f_equal; [|apply IH; lia].
  destruct G as [->|[->|(k & K & ->)]]; [reflexivity|exfalso; change (tok_val (S_ "*^")) with 2 in V2; lia|].
  exfalso. destruct (count_token_facts k K) as (_ & _ & _ & T). lia.
Qed.
Lemma filter_decomp {A} (f : A -> bool) l u x y w : l = u ++ x :: y :: w -> f x = true -> f y = true -> filter f l = filter f u ++ x :: y :: filter f w.
Proof. intros -> E1 E2. rewrite filter_app. cbn [filter]. rewrite E1, E2. reflexivity. Qed.

Lemma filter_len {A} (f : A -> bool) l : length (filter f l) <= length l.
Proof. induction l as [|x l IH]; [reflexivity|]. cbn. destruct (f x); cbn; lia. Qed.

Lemma manipulators_read l : in_writing_order l -> well_placed l ->
  exists least, forall fuel, least <= fuel -> lines_read l (manipulator_lines fuel l) (map before l) (map after l).
Proof.
  intros W WP. unfold manipulator_lines. destruct (manipulatorCheckTwoSlices l) as [m|] eqn:E.
  2:{ exists 0. intros fuel _. assert (EQ : map before l = map after l); [|rewrite EQ; constructor].
      unfold manipulatorCheckTwoSlices in E. destruct (forallb _ l) eqn:F; [|discriminate]. rewrite forallb_forall in F. apply map_ext_in. intros x I. apply F in I. apply Nat.eqb_eq in I. exact I. }
  rewrite (first_line l m E). set (G0 := map start_gs l).
  assert (L0 : Forall leads G0) by (apply Forall_forall; intros g I; apply in_map_iff in I; destruct I as (x & <- & _); apply start_leads).
  assert (P0 : map g_pair G0 = l) by (unfold G0; rewrite map_map; apply map_id).
  assert (O0 : map g_open G0 = map before l) by (unfold G0; rewrite map_map; reflexivity).
  destruct (expansions_spec (S (voices_wanted (map ms_of G0))) G0) as (news & G & EX & LD & PG & LR & UN & _ & OPN & _); [pose proof (total_wanted l); unfold G0; lia|exact L0|].
  rewrite P0 in *.
  assert (RD : Forall ready G).
  { apply Forall_forall. intros g I. rewrite Forall_forall in LD. apply leads_row; [apply LD; exact I|]. destruct (existsb counted_split (g_row g)) eqn:C; [|reflexivity].
    rewrite <- UN. symmetry. apply existsb_exists. exists g. auto. }
  set (opening := match news with [] => false | _ => true end).
  destruct (contractions_first l (S (length (map ms_of G0))) opening G) as (news2 & G' & CE & LR2 & RD2 & NP & PG2).
  - assert (LE : length G = length G0) by (rewrite <- (map_length g_pair G), PG, <- P0, map_length; reflexivity).
    unfold merging_count. pose proof (filter_len em G). rewrite map_length. lia.
  - exact RD.
  - exact PG.
  - intros pre a b post FP. destruct (find_pair_some _ _ _ _ _ _ FP) as (EG & EA & EB & NB).
    rewrite Forall_forall in LD.
    assert (IN : forall g, In g post -> In g G) by (intros g I; rewrite EG; apply in_or_app; right; right; right; exact I).
    assert (EM : forall g, In g G -> em g = true -> merges (g_pair g)) by (intros g I; apply leads_em; apply LD; exact I).
    assert (IA : In a G) by (rewrite EG; apply in_or_app; right; left; reflexivity).
    assert (IB : In b G) by (rewrite EG; apply in_or_app; right; right; left; reflexivity).
    assert (DEC : l = map g_pair pre ++ g_pair a :: g_pair b :: map g_pair post) by (rewrite <- PG, EG, map_app; reflexivity).
    destruct (WP _ _ _ _ DEC (EM a IA EA) (EM b IB EB)) as (W1 & W2).
    { intros u x y w D (M1 & M2). change [g_pair a] with (map g_pair [a]) in D. rewrite <- map_app in D. apply map_eq_app in D. destruct D as (u' & r' & D & _ & DR).
      apply map_eq_cons in DR. destruct DR as (x' & r2 & -> & <- & DR). apply map_eq_cons in DR. destruct DR as (y' & r3 & -> & <- & _).
      rewrite find_pair_none in NB. specialize (NB _ _ _ _ D).
      assert (I2 : forall g, In g (pre ++ [a]) -> In g G) by (intros g I; rewrite EG; apply in_app_iff in I; apply in_or_app; destruct I as [I|[<-|[]]]; [left; exact I|right; left; reflexivity]).
      assert (E1 : em x' = true) by (apply leads_em; [apply LD; apply I2; rewrite D; apply in_or_app; right; left; reflexivity|exact M1]).
      assert (E2 : em y' = true) by (apply leads_em; [apply LD; apply I2; rewrite D; apply in_or_app; right; right; left; reflexivity|exact M2]).
      rewrite E1, E2 in NB. discriminate. }
    split; [|split].
    + apply find_pair_none. intros u x y w D. unfold mwhen. destruct (goes (g_part b) x) eqn:GX, (goes (g_part b) y) eqn:GY, (em x) eqn:MX, (em y) eqn:MY; try reflexivity. exfalso.
      apply (W1 (filter (fun z => pr_part z <? pr_part (g_pair b)) (map g_pair u)) (g_pair x) (g_pair y) (filter (fun z => pr_part z <? pr_part (g_pair b)) (map g_pair w))).
      * apply filter_decomp; [rewrite D, map_app; reflexivity|exact GX|exact GY].
      * split; apply EM; auto; apply IN; rewrite D; apply in_or_app; right; [left|right; left]; reflexivity.
    + destruct W2 as [W2|W2].
      * left. unfold opening. destruct news as [|q news]; [|reflexivity]. exfalso. apply OPN; [|reflexivity]. apply existsb_exists.
        apply Exists_exists in W2. destruct W2 as (x & IX & GX). exists (start_gs x). split; [apply in_map; exact IX|].
        cbn [start_gs g_row]. destruct (row_start_spec x) as [(M & _)|(_ & _ & _ & _ & C)]; [|apply C; exact GX]. unfold merges, grows_in_steps in *. lia.
      * right. intros g I Gg. destruct (em g) eqn:MG; [left; reflexivity|right]. rewrite Forall_forall in RD.
        apply leads_still; auto; [intros M; apply leads_em in M; [congruence|]; auto|]. apply W2; [apply in_map; exact I|]. apply Nat.ltb_lt. exact Gg.
    + intros g I. clear -W DEC I. subst l. induction (map g_pair pre) as [|z t IH]; cbn [app] in W; inversion W as [|? ? W3 W4]; subst; [|apply IH; exact W3].
      inversion W3 as [|? ? W5 W6]; subst. rewrite Forall_forall in W6. apply (W6 (g_pair g)). apply in_map. exact I.
  - assert (CM : cleanManipulator (map ms_of G0) = (news ++ news2, map ms_of G')).
    { unfold cleanManipulator. rewrite EX. fold opening. rewrite CE. reflexivity. }
    assert (FIN : reads_line l (map ms_of G') (map g_open G') (map after l)).
    { pose proof (reads_from (map (fun g => (g, g_row g, settled g)) G')) as RF. rewrite !map_map in RF. unfold t_line, t_now, t_row, t_next in RF. cbn [fst snd] in RF.
      change (fun x => pr_part (g_pair x)) with g_part in RF.
      assert (A : map after l = map (fun x => g_open (settled x)) G') by (rewrite <- PG2, map_map; reflexivity). rewrite A, <- PG2. apply RF.
      - apply Forall_forall. intros z I. apply in_map_iff in I. destruct I as (g & <- & I). rewrite Forall_forall in RD2. exact (RD2 g I).
      - rewrite find_pair_map. change (fun x => ends_merging _) with em. rewrite NP. reflexivity. }
    rewrite <- O0. assert (ALL : lines_read l ((news ++ news2) ++ [map ms_of G']) (map g_open G0) (map after l)).
    { eapply lines_app; [eapply lines_app; [exact LR|exact LR2]|]. econstructor; [exact FIN|constructor]. }
    pose proof (lines_stable _ _ _ _ ALL) as ST. exists (S (length (news ++ news2) + 1)). intros fuel LF. destruct fuel as [|f]; [lia|]. cbn [cleanup]. rewrite CM.
    destruct (news ++ news2) as [|q r] eqn:Q; cbn [app] in *.
    + destruct f; exact ALL.
    + rewrite cleanup_stable; [exact ALL| |rewrite app_length; cbn [length] in *; lia]. inversion ST; assumption.
Qed.

(** ** Reading the lines *)

(** The open spines of staves with so many voices and side columns: all voices of a staff
    belong together. *)
Fixpoint open_spines {A} (voice : nat -> A) (side : nat -> nat -> A) (k : nat) (l : list (nat * nat)) : list A :=
  match l with
  | [] => []
  | (n, s) :: r => repeat (voice k) n ++ map (side k) (seq 0 s) ++ open_spines voice side (S k) r
  end.

Lemma plain_star : plain (S_ "*").
Proof. split; [|reflexivity]. intros H. cbn in H. intuition discriminate. Qed.
Lemma reads_stars {A} n (xs : list A) : length xs = n -> forall ts ys zs, reads ts ys zs -> reads (repeat (S_ "*") n ++ ts) (xs ++ ys) (xs ++ zs).
Proof.
  revert xs. induction n as [|n IH]; intros [|x xs] L ts ys zs R; try discriminate; [exact R|]. cbn [repeat app]. apply reads_keep; [apply plain_star|]. apply IH; [|exact R]. cbn in L. lia.
Qed.
Lemma reads_row {A} (v : A) n n' l ts xs ys : row_ok n n' l -> (is_merge (last l []) = true -> hd_error ts <> Some (S_ "*v")) -> reads ts xs ys ->
  reads (l ++ ts) (repeat v n ++ xs) (repeat v n' ++ ys).
Proof.
  intros RO HD R. destruct RO as [l NE P|a m H].
  - clear HD NE. induction P as [|t l [->| ->] P IH]; [exact R| |].
    + rewrite value_cons. change (tok_val (S_ "*")) with 1. cbn [length repeat app Nat.add]. apply reads_keep; [apply plain_star|exact IH].
    + rewrite value_cons. change (tok_val (S_ "*^")) with 2. cbn [length repeat app Nat.add]. apply reads_split. exact IH.
  - specialize (HD (merging_last a m ltac:(lia))). unfold merging_row. rewrite <- app_assoc, !repeat_app, <- !app_assoc. apply reads_stars; [apply repeat_length|].
    cbn [repeat app]. apply reads_merge; assumption.
Qed.
Lemma plain_hd l : plain_row l -> l <> [] -> hd_error l <> Some (S_ "*v").
Proof. intros [|t r [->| ->] _] N; [contradiction|discriminate|discriminate]. Qed.

Lemma line_reads {A} (voice : nat -> A) (side : nat -> nat -> A) base m cs cs' : reads_line base m cs cs' -> forall k,
  reads (line_tokens m) (open_spines voice side k (combine cs (map pr_sides base))) (open_spines voice side k (combine cs' (map pr_sides base))).
Proof.
  intros (N & t & -> & -> & -> & -> & F). induction F as [|[[[x l] n] n'] t R F IH]; intros k; [constructor|].
  cbn [map combine open_spines]. destruct (row_positive _ _ _ R) as (_ & _ & _ & NE).
  assert (N' : find_pair ends_merging (map (fun z => let '(x, l, n, n') := z in MS (pr_part x) (pr_sides x) l) t) = None).
  { cbn [map] in N. destruct t as [|z t']; [reflexivity|]. cbn [map find_pair] in N |- *. destruct (_ && _); [discriminate|]. destruct (match map _ t' with [] => _ | _ => _ end) as [[[[? ?] ?] ?]|]; [discriminate|reflexivity]. }
  specialize (IH N' (S k)). unfold line_tokens in *. cbn [flat_map ms_voices ms_sides]. replace (match l with [] => [S_ "*"] | v :: vs => v :: vs end) with l by (destruct l; [contradiction|reflexivity]).
  rewrite <- !app_assoc. apply reads_row; [exact R| |].
  - intros M. destruct (pr_sides x) as [|s]; [|discriminate]. cbn [repeat app]. destruct t as [|[[[y ly] ny] ny'] t]; [discriminate|]. cbn [map flat_map ms_voices ms_sides].
    inversion F as [|? ? RY _]; subst. destruct (row_positive _ _ _ RY) as (_ & _ & _ & NY).
    assert (NM : is_merge (last ly []) = false).
    { cbn [map find_pair] in N. unfold ends_merging in N at 1 2. cbn [ms_voices] in N. rewrite M in N. cbn [andb] in N. destruct (is_merge (last ly [])); [discriminate|reflexivity]. }
    destruct RY as [ly' _ PL|a q H]; [|rewrite merging_last in NM by lia; discriminate].
    destruct ly' as [|c r]; [contradiction|]. cbn [app hd_error]. apply (plain_hd _ PL NY).
  - apply reads_stars; [rewrite map_length, seq_length; reflexivity|exact IH].
Qed.
Lemma lines_reads {A} (voice : nat -> A) (side : nat -> nat -> A) base ms cs cs' : lines_read base ms cs cs' -> forall k,
  reads_lines (map line_tokens ms) (open_spines voice side k (combine cs (map pr_sides base))) (open_spines voice side k (combine cs' (map pr_sides base))).
Proof. induction 1 as [|m ms a b c R L IH]; intros k; [constructor|]. cbn [map]. econstructor; [apply line_reads; exact R|apply IH]. Qed.

(** The whole, for the staves [l] between two lines. *)
Definition columns_before (l : list pair) : list (nat * nat) := map (fun x => (before x, pr_sides x)) l.
Definition columns_after (l : list pair) : list (nat * nat) := map (fun x => (after x, pr_sides x)) l.
Lemma combine_maps {A B C} (f : A -> B) (g : A -> C) l : combine (map f l) (map g l) = map (fun x => (f x, g x)) l.
Proof. induction l; cbn; [reflexivity|]. f_equal. exact IHl. Qed.
Lemma manipulators_spines {A} (voice : nat -> A) (side : nat -> nat -> A) l : in_writing_order l -> well_placed l ->
  exists least, forall fuel, least <= fuel ->
    reads_lines (map line_tokens (manipulator_lines fuel l)) (open_spines voice side 0 (columns_before l)) (open_spines voice side 0 (columns_after l)).
Proof.
  intros W WP. destruct (manipulators_read l W WP) as (least & H). exists least. intros fuel LF. pose proof (lines_reads voice side _ _ _ _ (H fuel LF) 0) as R.
  rewrite !combine_maps in R. exact R.
Qed.

(** Lines handed to the importer one after the other. *)
Fixpoint import_lines (ln : nat) (ls : list (list str)) (st : sstate) : option sstate :=
  match ls with [] => Some st | l :: r => match spine_line ln l st with Some st' => import_lines (S ln) r st' | None => None end end.
Lemma reads_lines_importer ls : forall ln st st' ys, reads_lines ls (s_type st) ys -> import_lines ln ls st = Some st' -> s_type st' = ys.
Proof.
  induction ls as [|l r IH]; intros ln st st' ys R E; inversion R as [|? ? ? zs ? R1 R2]; subst; cbn in E.
  - injection E as <-. reflexivity.
  - destruct (spine_line ln l st) as [s1|] eqn:E1; [|discriminate]. eapply IH; [|exact E]. rewrite (reads_importer ln l st s1 zs R1 E1). exact R2.
Qed.
