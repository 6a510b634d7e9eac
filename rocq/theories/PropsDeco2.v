(** C166, continued: only texts with matching brackets are read. *)
From Coq Require Import List Arith NArith Bool Ascii String Lia.
From Verif Require Import PyStr PyStrProofs DecoModel DecoProofs DecoProofs2 PropsDeco.
Import ListNotations.
Local Open Scope list_scope.

Definition bracket (c : ascii) : Prop := In c (S_ "(){}[]<>").
Inductive balanced : str -> Prop :=
| bal_nil : balanced []
| bal_char c s : ~ bracket c -> balanced s -> balanced (c :: s)
| bal_pair o c a b : In (o, c) [("("%char, ")"%char); ("{"%char, "}"%char); ("["%char, "]"%char); ("<"%char, ">"%char)] ->
    balanced a -> balanced b -> balanced (o :: a ++ c :: b).

Lemma bracket_cases c : (is_open c = false -> closes c = None -> ~ bracket c)
  /\ (forall o, closes c = Some o ->
      In (o, c) [("("%char, ")"%char); ("{"%char, "}"%char); ("["%char, "]"%char); ("<"%char, ">"%char)]).
Proof.
  split.
  - intros O C [H|[H|[H|[H|[H|[H|[H|[H|[]]]]]]]]]; subst c; first [discriminate O|discriminate C].
  - intros o E. unfold closes in E.
    repeat match type of E with (if Ascii.eqb c ?x then _ else _) = _ =>
      destruct (Ascii.eqb_spec c x) as [->|]; [injection E as <-; cbn; tauto|] end. discriminate E.
Qed.
(** What follows open brackets. *)
Fixpoint chain (st : list ascii) (s : str) : Prop :=
  match st with
  | [] => balanced s
  | o :: st' => exists a c b, s = a ++ c :: b /\ closes c = Some o /\ balanced a /\ chain st' b
  end.
Lemma nested_chain : forall s st, nested st s = true -> chain st s.
Proof.
  induction s as [|c s IH]; intros st H; cbn [nested] in H.
  - destruct st; [constructor|discriminate H].
  - destruct (bracket_cases c) as [NB _]. destruct (is_open c) eqn:O.
    + specialize (IH _ H). cbn [chain] in IH. destruct IH as (a & c' & b & -> & C & BA & CH).
      pose proof (proj2 (bracket_cases c') c C) as P. destruct st as [|o st].
      * cbn [chain] in *. constructor; assumption.
      * cbn [chain] in *. destruct CH as (a2 & c2 & b2 & -> & C2 & B2 & CH). exists (c :: a ++ c' :: a2), c2, b2.
        split; [cbn [app]; rewrite <- app_assoc; reflexivity|]. split; [exact C2|]. split; [constructor; assumption|exact CH].
    + destruct (closes c) as [o|] eqn:C.
      * destruct st as [|x st]; [discriminate H|]. apply andb_prop in H. destruct H as [E H]. apply Ascii.eqb_eq in E. subst x.
        exists [], c, s. split; [reflexivity|]. split; [exact C|]. split; [constructor|exact (IH _ H)].
      * specialize (IH _ H). specialize (NB eq_refl eq_refl). destruct st as [|o st]; [constructor; assumption|].
        destruct IH as (a & c' & b & -> & C' & BA & CH). exists (c :: a), c', b. split; [reflexivity|].
        split; [exact C'|]. split; [constructor; assumption|exact CH].
Qed.
Lemma nested_pair o c st s : is_open o = true -> is_open c = false -> closes c = Some o -> nested st (o :: c :: s) = nested st s.
Proof. intros O C E. cbn [nested]. rewrite O, C, E, Ascii.eqb_refl. reflexivity. Qed.
Lemma starts_two o c s : starts_with [o; c] s = true -> exists r, s = o :: c :: r.
Proof.
  destruct s as [|x [|y r]]; cbn; rewrite ?andb_false_r; try discriminate. intro H. apply andb_prop in H. destruct H as [A H].
  apply andb_prop in H. destruct H as [B _]. apply Ascii.eqb_eq in A, B. subst. exists r. reflexivity.
Qed.
Lemma nested_replace o c : is_open o = true -> is_open c = false -> closes c = Some o -> forall n s st,
  nested st (replace_fuel n [o; c] [] s) = nested st s
  /\ (Ascii.eqb "s" o = false -> Ascii.eqb "s" c = false -> count_s (replace_fuel n [o; c] [] s) = count_s s).
Proof.
  intros O C E. induction n as [|n IH]; intros s st; [split; reflexivity|]. destruct s as [|x s]; [split; reflexivity|].
  cbn [replace_fuel]. destruct (starts_with [o; c] (x :: s)) eqn:SW.
  - destruct (starts_two o c _ SW) as (r & ->). cbn [length skipn app]. destruct (IH r st) as [A B]. split.
    + etransitivity; [exact A|]. symmetry. apply nested_pair; assumption.
    + intros NO NC. etransitivity; [exact (B NO NC)|]. unfold count_s. cbn [filter]. rewrite NO, NC. reflexivity.
  - split.
    + cbn [nested]. destruct (is_open x); [apply IH|]. destruct (closes x); [|apply IH]. destruct st as [|y st]; [reflexivity|].
      f_equal. apply IH.
    + intros NO NC. unfold count_s in *. cbn [filter]. destruct (IH s st) as [_ B]. specialize (B NO NC).
      destruct (Ascii.eqb "s" x); cbn [length]; congruence.
Qed.
Lemma drop_nested s : nested [] (drop_empty s) = nested [] s /\ count_s (drop_empty s) = count_s s.
Proof.
  unfold drop_empty.
  assert (K : forall o c, is_open o = true -> is_open c = false -> closes c = Some o -> Ascii.eqb "s" o = false -> Ascii.eqb "s" c = false ->
              forall u, nested [] (replace [o; c] [] u) = nested [] u /\ count_s (replace [o; c] [] u) = count_s u).
  { intros o c O C E NO NC u. destruct (nested_replace o c O C E (S (length u)) u []) as [A B]. split; [exact A|exact (B NO NC)]. }
  destruct (K "("%char ")"%char eq_refl eq_refl eq_refl eq_refl eq_refl s) as [A1 B1].
  destruct (K "["%char "]"%char eq_refl eq_refl eq_refl eq_refl eq_refl (replace (S_ "()") [] s)) as [A2 B2].
  destruct (K "{"%char "}"%char eq_refl eq_refl eq_refl eq_refl eq_refl (replace (S_ "[]") [] (replace (S_ "()") [] s))) as [A3 B3].
  destruct (K "<"%char ">"%char eq_refl eq_refl eq_refl eq_refl eq_refl (replace (S_ "{}") [] (replace (S_ "[]") [] (replace (S_ "()") [] s)))) as [A4 B4].
  split; [exact (eq_trans A4 (eq_trans A3 (eq_trans A2 A1)))|exact (eq_trans B4 (eq_trans B3 (eq_trans B2 B1)))].
Qed.

Lemma count_kept l : count_s (filter deco_char l) = length (filter (Ascii.eqb "s") l).
Proof.
  unfold count_s. induction l as [|c l IH]; [reflexivity|]. cbn [filter].
  destruct (Ascii.eqb_spec "s" c) as [<-|N].
  - change (deco_char "s") with true. cbn [filter]. change (Ascii.eqb "s" "s") with true. cbn [length]. f_equal. exact IH.
  - destruct (deco_char c); [|exact IH]. cbn [filter]. destruct (Ascii.eqb_spec "s" c); [contradiction|exact IH].
Qed.
Lemma gives_up staff_list d : nested [] d = false -> 2 <= count_s d -> read_dropped staff_list d = None.
Proof.
  intros N LEN. unfold read_dropped.
  destruct (Nat.eqb_spec (count_s d) 0); [lia|]. destruct (Nat.eqb_spec (count_s d) 1); [lia|]. rewrite N. reflexivity.
Qed.
Lemma read_none expand staff_list d e : expand d = e -> nested [] (filter deco_char e) = false -> 2 <= count_s (filter deco_char e) ->
  read_deco expand staff_list d = None.
Proof.
  intros EX N LEN. unfold read_deco. rewrite EX. revert N LEN. generalize (filter deco_char e). intros f N LEN.
  destruct (drop_nested f) as [N1 C1]. destruct (drop_nested (drop_empty f)) as [N2 C2].
  apply gives_up; [exact (eq_trans N2 (eq_trans N1 N))|rewrite C2, C1; exact LEN].
Qed.

(** A decoration of two staves or more is given up unless its brackets match. *)
Theorem C166_balanced : forall expand staff_list d t, read_deco expand staff_list d = Some t ->
  2 <= length (filter (Ascii.eqb "s") (expand d)) -> balanced (filter deco_char (expand d)).
Proof.
  intros expand staff_list d t R LEN. rewrite <- count_kept in LEN.
  destruct (nested [] (filter deco_char (expand d))) eqn:N; [exact (nested_chain _ [] N)|].
  rewrite (read_none expand staff_list d _ eq_refl N LEN) in R. discriminate R.
Qed.
Print Assumptions C166_balanced.

Example C166_balanced_nonvacuous :
  read_deco (fun d => d) [1; 2]%N (S_ "{(s1,s2)}") <> None /\ read_deco (fun d => d) [1; 2]%N (S_ "{(s1,s2})") = None
  /\ read_deco (fun d => d) [1; 2]%N (S_ "{(s1,s2)") = None.
Proof. split; [vm_compute; discriminate|]. split; vm_compute; reflexivity. Qed.
