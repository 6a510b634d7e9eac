(** C170: asking whether music21 is recent enough. *)
From Coq Require Import List Arith NArith ZArith Bool Ascii String Lia.
From Verif Require Import PyStr VersionModel.
Import ListNotations.
Local Open Scope list_scope.

(** ** When a version comes before another *)

(** Strings in the order of the dictionary. *)
Definition str_before (s t : str) : Prop :=
  exists p, (exists c r, s = p /\ t = p ++ c :: r)
    \/ (exists a b s' t', s = p ++ a :: s' /\ t = p ++ b :: t' /\ (N_of_ascii a < N_of_ascii b)%N).
Definition el_before (x y : el) : Prop :=
  match x, y with Num a, Num b => (a < b)%Z | Str s, Str t => str_before s t | _, _ => False end.
(** The first different elements decide; a version that goes on is later. *)
Inductive older : list el -> list el -> Prop :=
| older_end : forall y w, older [] (y :: w)
| older_here : forall x y v w, el_before x y -> older (x :: v) (y :: w)
| older_next : forall x v w, older v w -> older (x :: v) (x :: w).
(** One to three numbers, or three numbers and a text. *)
Definition version (v : list el) : Prop :=
  exists l, 1 <= length l <= 3 /\ (v = map Num l \/ exists s, length l = 3 /\ v = map Num l ++ [Str s]).

Lemma cmp_refl s : str_cmp s s = Eq.
Proof. induction s as [|c s IH]; [reflexivity|]. cbn [str_cmp]. rewrite N.compare_refl. exact IH. Qed.
Lemma cmp_eq : forall s t, str_cmp s t = Eq -> s = t.
Proof.
  induction s as [|c s IH]; intros [|d t]; cbn [str_cmp]; try discriminate; [reflexivity|].
  destruct (N.compare_spec (N_of_ascii c) (N_of_ascii d)) as [E|E|E]; try discriminate. intro H. rewrite (IH t H).
  f_equal. rewrite <- (ascii_N_embedding c), <- (ascii_N_embedding d), E. reflexivity.
Qed.
Lemma cmp_before : forall s t, str_cmp s t = Lt -> str_before s t.
Proof.
  induction s as [|c s IH]; intros [|d t]; cbn [str_cmp]; try discriminate.
  - intros _. exists []. left. exists d, t. split; reflexivity.
  - destruct (N.compare_spec (N_of_ascii c) (N_of_ascii d)) as [E|E|E]; try discriminate.
    + assert (c = d) as <- by (rewrite <- (ascii_N_embedding c), <- (ascii_N_embedding d), E; reflexivity).
      intro H. destruct (IH t H) as (p & [(a & r & -> & ->)|(a & b & s' & t' & -> & -> & L)]); exists (c :: p).
      * left. exists a, r. split; reflexivity.
      * right. exists a, b, s', t'. repeat split; assumption.
    + intros _. exists []. right. exists c, d, s, t. repeat split. exact E.
Qed.
Lemma before_cmp s t : str_before s t -> str_cmp s t = Lt.
Proof.
  intros (p & H). revert s t H. induction p as [|c p IH]; intros s t [(x & r & -> & ->)|(a & b & s' & t' & -> & -> & L)].
  - reflexivity.
  - cbn [app str_cmp]. apply N.compare_lt_iff in L. rewrite L. reflexivity.
  - cbn [app str_cmp]. rewrite N.compare_refl. apply IH. left. exists x, r. split; reflexivity.
  - cbn [app str_cmp]. rewrite N.compare_refl. apply IH. right. exists a, b, s', t'. repeat split. exact L.
Qed.

(** Numbers at the first three places, a text at the fourth and nothing after it. *)
Fixpoint fits (i : nat) (v : list el) : Prop :=
  match v with
  | [] => True
  | Num _ :: r => i < 3 /\ fits (S i) r
  | Str _ :: r => i = 3 /\ r = []
  end.
Lemma version_fits v : version v -> fits 0 v /\ v <> [].
Proof.
  intros (l & LEN & H). destruct l as [|a [|b [|c [|d l]]]]; cbn in LEN; try lia;
    destruct H as [->|(s & E & ->)]; cbn in *; try discriminate; (split; [repeat split; lia|discriminate]).
Qed.
Lemma el_self x : ~ el_before x x.
Proof.
  destruct x as [z|s]; cbn [el_before]; [lia|]. intro H. apply before_cmp in H. rewrite cmp_refl in H. discriminate.
Qed.
(** The comparison of elements that stand at the same place. *)
Lemma el_cases int_of i x y v w : fits i (x :: v) -> fits i (y :: w) ->
  exists c, (if i <? 3 then cmp_int int_of x y else cmp_last x y) = Some c
    /\ match c with Eq => x = y | Lt => el_before x y | Gt => ~ el_before x y /\ x <> y end.
Proof.
  destruct x as [a|s], y as [b|t]; cbn [fits]; intros [A A'] [B B']; try lia.
  - apply Nat.ltb_lt in A. rewrite A. exists (a ?= b)%Z. split; [reflexivity|]. cbn [el_before].
    destruct (Z.compare_spec a b) as [E|E|E]; [congruence|exact E|]. split; [lia|]. intro Q. injection Q. lia.
  - subst i. exists (str_cmp s t). split; [reflexivity|]. cbn [el_before]. destruct (str_cmp s t) eqn:E.
    + rewrite (cmp_eq _ _ E). reflexivity.
    + exact (cmp_before _ _ E).
    + split; [intro H; apply before_cmp in H; congruence|]. intro Q. injection Q as ->. rewrite cmp_refl in E. discriminate.
Qed.
Lemma go_spec int_of : forall v w i, fits i v -> fits i w -> v <> [] -> w <> [] ->
  (go int_of i v w = false -> older v w) /\ (go int_of i v w = true -> ~ older v w).
Proof.
  induction v as [|x v IH]; intros [|y w] i FV FW NV NW; try congruence. cbn [go].
  destruct (el_cases int_of i x y v w FV FW) as (c & -> & C). destruct c.
  - subst y.
    assert (TL : forall b : bool, (b = false -> older v w) /\ (b = true -> ~ older v w) ->
                 (b = false -> older (x :: v) (x :: w)) /\ (b = true -> ~ older (x :: v) (x :: w))).
    { intros b [H K]. split; intro E; [apply older_next; exact (H E)|]. intro O. inversion O.
      - exact (el_self x ltac:(assumption)).
      - exact (K E ltac:(assumption)). }
    destruct (Nat.eqb_spec i 3) as [->|NI].
    + apply TL. destruct x as [z|s]; cbn [fits] in FV, FW; [lia|]. destruct FV as [_ ->], FW as [_ ->].
      split; [discriminate|]. intros _ O. inversion O.
    + destruct x as [z|s]; cbn [fits] in FV, FW; [|lia].
      destruct v as [|x1 v]; [|destruct w as [|y1 w]].
      * apply TL. destruct w; cbn; (split; [try discriminate|try discriminate]); intros _; [intro O; inversion O|constructor].
      * apply TL. cbn. split; [discriminate|]. intros _ O. inversion O.
      * apply TL. apply IH; [apply FV|apply FW|discriminate|discriminate].
  - split; [intros _; apply older_here; exact C|discriminate].
  - destruct C as [C1 C2]. split; [discriminate|]. intros _ O. inversion O; subst; [exact (C1 ltac:(assumption))|exact (C2 eq_refl)].
Qed.

(** ** C170 *)

(** The answer is yes just when the version is not older than the one that is needed. *)
Theorem C170_order : forall int_of v w, version v -> version w ->
  (at_least int_of v w = Some true <-> ~ older v w) /\ (at_least int_of v w = Some false <-> older v w).
Proof.
  intros int_of v w V W. apply version_fits in V, W. destruct V as [FV NV], W as [FW NW].
  destruct (go_spec int_of v w 0 FV FW NV NW) as [A B].
  assert (E : at_least int_of v w = Some (go int_of 0 v w)) by (destruct v; [congruence|reflexivity]). rewrite E.
  destruct (go int_of 0 v w); split; split; intro H; try reflexivity; try discriminate; try (apply B; reflexivity); try (apply A; reflexivity).
  - exfalso. exact (B eq_refl H).
  - exfalso. exact (H (A eq_refl)).
Qed.
Print Assumptions C170_order.

(** Without a version there is an error, never an answer; texts that are no numbers mean no. *)
Theorem C170_bad : forall int_of needed, at_least int_of [] needed = None
  /\ forall s v, int_of s = None -> at_least int_of (Str s :: v) needed = Some false.
Proof.
  intros int_of needed. split; [reflexivity|]. intros s v E. destruct needed as [|[b|t] w]; cbn; [reflexivity| |reflexivity].
  rewrite E. reflexivity.
Qed.
Print Assumptions C170_bad.

(** A later version is not always at least an earlier one: a final version counts as older than
    its own alphas, and alpha 9 as newer than alpha 11. *)
Theorem C170_final_refuted : exists int_of final alpha, final = [Num 9; Num 0; Num 0] /\ alpha = [Num 9; Num 0; Num 0; Str (S_ "a11")]
  /\ at_least int_of final alpha = Some false /\ at_least int_of alpha final = Some true.
Proof. exists (fun _ => None). eexists _, _. repeat split; vm_compute; reflexivity. Qed.
Print Assumptions C170_final_refuted.
Theorem C170_alpha_refuted : exists int_of a9 a11, a9 = [Num 9; Num 0; Num 0; Str (S_ "a9")] /\ a11 = [Num 9; Num 0; Num 0; Str (S_ "a11")]
  /\ at_least int_of a9 a11 = Some true /\ at_least int_of a11 a9 = Some false.
Proof. exists (fun _ => None). eexists _, _. repeat split; vm_compute; reflexivity. Qed.
Print Assumptions C170_alpha_refuted.

Example C170_nonvacuous :
  version [Num 9; Num 1; Num 0] /\ version [Num 9; Num 0; Num 0; Str (S_ "a11")]
  /\ at_least (fun _ => None) [Num 9; Num 1; Num 0] [Num 9; Num 0; Num 0; Str (S_ "a11")] = Some true
  /\ at_least (fun _ => None) [Num 8; Num 3] [Num 9; Num 0; Num 0; Str (S_ "a11")] = Some false.
Proof.
  split; [exists [9; 1; 0]%Z; split; [cbn; lia|left; reflexivity]|].
  split; [exists [9; 0; 0]%Z; split; [cbn; lia|right; eexists; split; reflexivity]|]. split; vm_compute; reflexivity.
Qed.
