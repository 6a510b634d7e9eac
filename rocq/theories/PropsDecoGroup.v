(** C167, C168: staff groups made from the trees that are read. *)
From Coq Require Import List Arith NArith Bool Ascii String Lia Sorting.Sorted.
From Verif Require Import PyStr PyStrProofs DecoModel DecoProofs DecoProofs2 PropsDeco DecoGroupModel.
Import ListNotations.
Local Open Scope list_scope.

(** The groups of a layout, a group before those in it. *)
Fixpoint groups_in (ix : N -> nat) (l : layout) : list group :=
  match l with
  | LEnd => []
  | LStaff _ r => groups_in ix r
  | LGroup s bar i r => (sign_read s, bar, map ix (staves_of i)) :: groups_in ix i ++ groups_in ix r
  end.

Lemma mem_iff n l : mem n l = true <-> In n l.
Proof.
  unfold mem. rewrite existsb_exists. split; [intros (x & I & E); apply Nat.eqb_eq in E; subst; exact I|].
  intro I. exists n. split; [exact I|apply Nat.eqb_refl].
Qed.
Lemma mem_not n l : mem n l = false <-> ~ In n l.
Proof. rewrite <- mem_iff. destruct (mem n l); split; congruence. Qed.
Lemma without_skip a b m : (forall x, In x a -> In x m) -> (forall x, In x b -> ~ In x m) -> without (a ++ b) m = b.
Proof.
  intros A B. unfold without. rewrite filter_app, filter_nil, filter_id; [reflexivity| |].
  - intros x I. apply negb_true_iff, mem_not. exact (B x I).
  - intros x I. apply negb_false_iff, mem_iff. exact (A x I).
Qed.

Definition below (a b : list nat) : Prop := forall x y, In x a -> In y b -> x < y.
Lemma before_skip low todo : forall od r, (forall x, In x od -> x < low /\ ~ In x todo) ->
  take_before low todo (od ++ r) = take_before low todo r.
Proof.
  induction od as [|x od IH]; intros r H; [reflexivity|]. destruct (H x (or_introl eq_refl)) as [L NI]. cbn [app take_before].
  assert (E : low <=? x = false) by (apply Nat.leb_gt; exact L). apply mem_not in NI. rewrite E, NI. apply IH.
  intros y I. apply H. right. exact I.
Qed.
Lemma before_take low st r : (forall x, In x r -> low <= x) -> forall pend, StronglySorted Nat.lt (pend ++ low :: st) ->
  take_before low (pend ++ low :: st) (pend ++ r) = (pend, low :: st).
Proof.
  intro R. induction pend as [|x pend IH]; intro SS.
  - cbn [app]. destruct r as [|y r]; [reflexivity|]. cbn [take_before].
    assert (E : low <=? y = true) by (apply Nat.leb_le; apply R; left; reflexivity). rewrite E. reflexivity.
  - cbn [app] in *. pose proof SS as SS0. apply StronglySorted_inv in SS. destruct SS as [SS F]. cbn [take_before].
    pose proof (proj1 (Forall_forall _ _) F) as F'.
    assert (E : low <=? x = false) by (apply Nat.leb_gt; apply F'; apply in_or_app; right; left; reflexivity).
    assert (M : mem x (x :: pend ++ low :: st) = true) by (apply mem_iff; left; reflexivity). rewrite E, M.
    assert (W : without (x :: pend ++ low :: st) [x] = pend ++ low :: st).
    { apply (without_skip [x] (pend ++ low :: st) [x]); [intros y I; exact I|].
      intros y I [<-|[]]. specialize (F' x I). lia. }
    rewrite W, (IH SS). reflexivity.
Qed.
Lemma rest_skip todo : forall od r, (forall x, In x od -> ~ In x todo) -> take_rest todo (od ++ r) = take_rest todo r.
Proof.
  induction od as [|x od IH]; intros r H; [reflexivity|]. cbn [app take_rest].
  pose proof (H x (or_introl eq_refl)) as NI. apply mem_not in NI. rewrite NI. apply IH. intros y I. apply H. right. exact I.
Qed.
Lemma rest_take : forall l, StronglySorted Nat.lt l -> take_rest l l = (l, []).
Proof.
  assert (G : forall l, StronglySorted Nat.lt l -> take_rest l l = (l, [])); [|exact G].
  induction l as [|x l IH]; intro SS; [reflexivity|]. apply StronglySorted_inv in SS. destruct SS as [SS F]. cbn [take_rest].
  assert (M : mem x (x :: l) = true) by (apply mem_iff; left; reflexivity). rewrite M.
  assert (W : without (x :: l) [x] = l).
  { apply (without_skip [x] l [x]); [intros y I; exact I|]. intros y I [<-|[]]. pose proof (proj1 (Forall_forall _ _) F x I). lia. }
  rewrite W, (IH SS). reflexivity.
Qed.
Lemma own_in L x : In x (own_of L) -> In x (staves_of L).
Proof.
  induction L as [|n l IH|s bar i IHi l IHl]; cbn; [tauto|intros [H|H]; [left; exact H|right; auto]|].
  intro H. apply in_or_app. right. auto.
Qed.
(** Every group has a staff. *)
Fixpoint filled (l : layout) : Prop :=
  match l with
  | LEnd => True
  | LStaff _ r => filled r
  | LGroup _ _ i r => staves_of i <> [] /\ filled i /\ filled r
  end.
Lemma plain_filled L : plain_groups L -> filled L.
Proof. induction L as [|n l IH|s bar i IHi l IHl]; cbn; [tauto|exact IH|]. intros (A & _ & _ & B & C). auto. Qed.

Section Make.
Context (ix : N -> nat).

Lemma subs_spec : forall L od pend, filled L -> StronglySorted Nat.lt (pend ++ map ix (staves_of L)) ->
  below od (pend ++ map ix (staves_of L)) ->
  exists st t, make_subs (descs_of ix L) (od ++ pend ++ map ix (own_of L)) (pend ++ map ix (staves_of L))
               = Some (groups_in ix L, st, t)
    /\ st ++ t = pend ++ map ix (staves_of L)
    /\ take_rest t (od ++ pend ++ map ix (own_of L)) = (t, []).
Proof.
  induction L as [|n l IH|s bar i IHi l IHl]; intros od pend W SS B.
  - cbn [staves_of own_of map descs_of make_subs groups_in] in *. rewrite app_nil_r in *. exists [], pend. split; [reflexivity|].
    split; [reflexivity|]. rewrite rest_skip; [apply rest_take; exact SS|].
    intros x I J. specialize (B x x I J). lia.
  - cbn [staves_of own_of map descs_of groups_in] in *.
    replace (pend ++ ix n :: map ix (staves_of l)) with ((pend ++ [ix n]) ++ map ix (staves_of l)) in *
      by (rewrite <- app_assoc; reflexivity).
    replace (pend ++ ix n :: map ix (own_of l)) with ((pend ++ [ix n]) ++ map ix (own_of l)) by (rewrite <- app_assoc; reflexivity).
    apply IH; assumption.
  - destruct W as (NE & Wi & Wl). cbn [staves_of own_of descs_of groups_in] in *. rewrite map_app in *.
    destruct (ss_app _ _ _ SS) as (_ & S2 & C2). destruct (ss_app _ _ _ S2) as (S3 & S4 & C3).
    destruct (IHi [] []) as (st1 & t1 & E1 & J1 & R1); [exact Wi|exact S3|intros x y []|]. cbn [app] in E1, J1, R1.
    destruct (map ix (staves_of i)) as [|low st] eqn:Ei; [destruct (staves_of i); [congruence|discriminate Ei]|].
    destruct (IHl (od ++ pend) []) as (st2 & t2 & E2 & J2 & R2); [exact Wl|exact S4| |].
    { intros x y I J. cbn [app] in J. apply in_app_or in I. destruct I as [I|I].
      - apply B; [exact I|]. apply in_or_app. right. apply in_or_app. right. exact J.
      - apply C2; [exact I|]. apply in_or_app. right. exact J. }
    cbn [app] in E2, J2, R2. rewrite <- app_assoc in E2, R2.
    cbn [make_subs]. rewrite before_skip.
    2:{ intros x I. split; [apply B; [exact I|]; apply in_or_app; right; left; reflexivity|].
        intro J. specialize (B x x I J). lia. }
    cbn [app] in SS. cbn [app]. rewrite (before_take low (st ++ map ix (staves_of l)) (map ix (own_of l))); [| |exact SS].
    2:{ intros x I. apply in_map_iff in I. destruct I as (m & <- & I). apply own_in in I.
        pose proof (C3 low (ix m) (or_introl eq_refl) (in_map ix _ _ I)). lia. }
    rewrite E1. cbn [finish]. rewrite R1, J1.
    assert (WO : without (low :: st ++ map ix (staves_of l)) (low :: st) = map ix (staves_of l)).
    { apply (without_skip (low :: st) (map ix (staves_of l)) (low :: st)); [intros y I; exact I|].
      intros y I J. pose proof (C3 y y J I). lia. }
    rewrite WO, E2. eexists _, _. split; [reflexivity|]. split; [|exact R2].
    rewrite <- !app_assoc, J2. reflexivity.
Qed.

Definition top_groups (L : layout) : list group :=
  match L with
  | LGroup _ _ _ LEnd => groups_in ix L
  | _ => (NoSym, false, map ix (staves_of L)) :: groups_in ix L
  end.
Lemma make_root s bar L r : filled L -> staves_of L <> [] -> StronglySorted Nat.lt (map ix (staves_of L)) ->
  make_groups (DCons s bar (map ix (own_of L)) (map ix (staves_of L)) (descs_of ix L) r)
  = Some ((s, bar, map ix (staves_of L)) :: groups_in ix L, map ix (staves_of L)).
Proof.
  intros W NE SS. unfold make_groups.
  destruct (subs_spec L [] [] W SS ltac:(intros x y [])) as (st & t & E & J & R). cbn [app] in E, J, R.
  destruct (map ix (staves_of L)) as [|a l] eqn:EL; [destruct (staves_of L); [congruence|discriminate EL]|].
  rewrite E. unfold finish. rewrite R, J. reflexivity.
Qed.
Lemma make_spec L : filled L -> staves_of L <> [] -> StronglySorted Nat.lt (map ix (staves_of L)) ->
  make_groups (top_of ix L) = Some (top_groups L, map ix (staves_of L)).
Proof.
  intros W NE SS.
  destruct L as [|n l|s bar i l]; [cbn in NE; congruence|apply make_root; assumption|].
  destruct l as [|n l|s2 b2 i2 l2]; [|apply make_root; assumption|apply make_root; assumption].
  cbn [staves_of] in *. rewrite app_nil_r in *. cbn [top_of descs_of].
  rewrite (make_root (sign_read s) bar i DNil (proj1 (proj2 W)) NE SS). unfold top_groups. cbn [groups_in staves_of].
  rewrite ?app_nil_r. reflexivity.
Qed.
End Make.

(** A layout with groups in it, written and read: the staff groups of the score are those of
    the layout, each with its staves in order, and each staff becomes one part.  [L] is in a
    group without symbol as reading makes it. *)
Theorem C167_again (expand : str -> str) (staff_list : list N) (ix : N -> nat) (L : layout) (s : symbol) :
  ~ has_sign s -> places staff_list ix -> (forall n, In n staff_list <-> In n (staves_of L)) ->
  StronglySorted N.lt (staves_of L) -> StronglySorted Nat.lt (map ix (staves_of L)) -> plain_groups L -> 2 <= length (staves_of L) ->
  expand (write_deco (FTree s false (staves_of L) (trees_of L) FNil)) = write_deco (FTree s false (staves_of L) (trees_of L) FNil) ->
  exists t, read_deco expand staff_list (write_deco (FTree s false (staves_of L) (trees_of L) FNil)) = Some t
    /\ make_groups t = Some (top_groups ix L, map ix (staves_of L)).
Proof.
  intros NS PL COV SS SX W LEN EX. exists (top_of ix L). split; [apply C166_rooted with (s := s); assumption|].
  apply make_spec; [apply plain_filled; exact W| |exact SX]. intro E. rewrite E in LEN. cbn in LEN. lia.
Qed.
Print Assumptions C167_again.
Theorem C167_covering (expand : str -> str) (staff_list : list N) (ix : N -> nat) (L : layout) :
  places staff_list ix -> (forall n, In n staff_list <-> In n (staves_of L)) -> own_of L = [] ->
  StronglySorted N.lt (staves_of L) -> StronglySorted Nat.lt (map ix (staves_of L)) -> plain_groups L -> 2 <= length (staves_of L) ->
  expand (write_deco (trees_of L)) = write_deco (trees_of L) ->
  exists t, read_deco expand staff_list (write_deco (trees_of L)) = Some t
    /\ make_groups t = Some (top_groups ix L, map ix (staves_of L)).
Proof.
  intros PL COV O SS SX W LEN EX. exists (top_of ix L). split; [apply C166_covering; assumption|].
  apply make_spec; [apply plain_filled; exact W| |exact SX]. intro E. rewrite E in LEN. cbn in LEN. lia.
Qed.
Print Assumptions C167_covering.

(** No staff of a tree gets lost, whatever the tree: otherwise the assertion fails. *)
Lemma before_all low : forall owned todo n, In n todo ->
  In n (fst (take_before low todo owned)) \/ In n (snd (take_before low todo owned)).
Proof.
  induction owned as [|m l IH]; intros todo n I; [right; exact I|]. cbn [take_before].
  destruct (low <=? m); [right; exact I|]. destruct (mem m todo); [|exact (IH todo n I)].
  destruct (Nat.eq_dec m n) as [->|N].
  - destruct (take_before low (without todo [n]) l). left. left. reflexivity.
  - assert (J : In n (without todo [m])).
    { apply filter_In. split; [exact I|]. apply negb_true_iff, mem_not. intros [E|[]]. contradiction. }
    specialize (IH _ _ J). destruct (take_before low (without todo [m]) l) as [a t]. cbn [fst snd] in *.
    destruct IH; [left; right|right]; assumption.
Qed.
Lemma rest_all : forall owned todo n, In n todo -> In n (fst (take_rest todo owned)) \/ In n (snd (take_rest todo owned)).
Proof.
  induction owned as [|m l IH]; intros todo n I; [right; exact I|]. cbn [take_rest].
  destruct (mem m todo); [|exact (IH todo n I)].
  destruct (Nat.eq_dec m n) as [->|N].
  - destruct (take_rest (without todo [n]) l). left. left. reflexivity.
  - assert (J : In n (without todo [m])).
    { apply filter_In. split; [exact I|]. apply negb_true_iff, mem_not. intros [E|[]]. contradiction. }
    specialize (IH _ _ J). destruct (take_rest (without todo [m]) l) as [a t]. cbn [fst snd] in *.
    destruct IH; [left; right|right]; assumption.
Qed.
Lemma subs_all : forall kids owned todo gs st t n, make_subs kids owned todo = Some (gs, st, t) -> In n todo -> In n st \/ In n t.
Proof.
  induction kids as [|s bar own ids k IHk r IHr]; intros owned todo gs st t n M I.
  - cbn in M. injection M as <- <- <-. right. exact I.
  - cbn [make_subs] in M. destruct ids as [|low ids]; [discriminate|].
    pose proof (before_all low owned todo n I) as B. destruct (take_before low todo owned) as [a t1]. cbn [fst snd] in B.
    destruct (finish s bar own (make_subs k own (low :: ids))) as [[g1 s1]|]; [|discriminate].
    destruct (make_subs r owned (without t1 s1)) as [[[g2 s2] t2]|] eqn:R; [|discriminate]. injection M as <- <- <-.
    destruct B as [B|B]; [left; apply in_app_iff; left; exact B|].
    destruct (mem n s1) eqn:Q.
    + left. apply in_app_iff. right. apply in_app_iff. left. apply mem_iff. exact Q.
    + destruct (IHr _ _ _ _ _ n R) as [X|X].
      * apply filter_In. split; [exact B|]. rewrite Q. reflexivity.
      * left. apply in_app_iff. right. apply in_app_iff. right. exact X.
      * right. exact X.
Qed.
Theorem C167_none_lost : forall s bar own ids kids rest gs st,
  make_groups (DCons s bar own ids kids rest) = Some (gs, st) -> forall n, In n ids -> In n st.
Proof.
  intros s bar own ids kids rest gs st M n I. destruct ids as [|i ids]; [contradiction|]. unfold make_groups, finish in M.
  destruct (make_subs kids own (i :: ids)) as [[[g s1] t]|] eqn:E; [|discriminate].
  pose proof (subs_all _ _ _ _ _ _ n E I) as A. pose proof (rest_all own t n) as R.
  destruct (take_rest t own) as [a lo]. cbn [fst snd] in R. destruct lo; [|discriminate]. injection M as <- <-.
  apply in_app_iff. destruct A as [A|A]; [left; exact A|]. destruct (R A) as [X|[]]. right. exact X.
Qed.
Print Assumptions C167_none_lost.

(** ** Files without decoration *)

(** The group of a part. *)
Definition part_kind (p : list nat) : list group :=
  if length p <=? 1 then [] else if length p =? 2 then [(Brace, true, p)] else [(Bracket, false, p)].

Lemma kind_cases p : part_kind p = match p with [] | [_] => [] | [_; _] => [(Brace, true, p)] | _ => [(Bracket, false, p)] end.
Proof. destruct p as [|a [|b [|c p]]]; reflexivity. Qed.

(** The layout that stands for the parts. *)
Fixpoint parts_layout (parts : list (list N)) : layout :=
  match parts with
  | [] => LEnd
  | p :: r =>
      let inside := fold_right LStaff LEnd p in
      match p with
      | [] => parts_layout r
      | [n] => LStaff n (parts_layout r)
      | [_; _] => LGroup Brace true inside (parts_layout r)
      | _ => LGroup Bracket false inside (parts_layout r)
      end
  end.
Lemma staves_row p : staves_of (fold_right LStaff LEnd p) = p.
Proof. induction p as [|n p IH]; [reflexivity|]. cbn. f_equal. exact IH. Qed.
Lemma own_row p : own_of (fold_right LStaff LEnd p) = p.
Proof. induction p as [|n p IH]; [reflexivity|]. cbn. f_equal. exact IH. Qed.
Lemma descs_row ix p : descs_of ix (fold_right LStaff LEnd p) = DNil.
Proof. induction p as [|n p IH]; [reflexivity|]. exact IH. Qed.
Lemma groups_row ix p : groups_in ix (fold_right LStaff LEnd p) = [].
Proof. induction p as [|n p IH]; [reflexivity|]. exact IH. Qed.
Lemma filled_row p : filled (fold_right LStaff LEnd p).
Proof. induction p as [|n p IH]; [exact Logic.I|]. exact IH. Qed.

Lemma layout_parts ix : forall ps,
  staves_of (parts_layout ps) = concat ps
  /\ map ix (own_of (parts_layout ps)) = flat_map (fun p => match p with [i] => [i] | _ => [] end) (map (map ix) ps)
  /\ descs_of ix (parts_layout ps) = fold_right part_group DNil (map (map ix) ps)
  /\ groups_in ix (parts_layout ps) = flat_map part_kind (map (map ix) ps)
  /\ filled (parts_layout ps).
Proof.
  induction ps as [|p ps (A & B & C & D & E)]; [repeat split; reflexivity|].
  destruct p as [|a [|b p]]; [|
    |cbn [parts_layout];
     assert (Q : exists s bar, parts_layout ((a :: b :: p) :: ps) = LGroup s bar (fold_right LStaff LEnd (a :: b :: p)) (parts_layout ps)
         /\ sign_read s = s
         /\ (forall r, part_group (map ix (a :: b :: p)) r = DCons s bar (map ix (a :: b :: p)) (map ix (a :: b :: p)) DNil r)
         /\ part_kind (map ix (a :: b :: p)) = [(s, bar, map ix (a :: b :: p))])
       by (destruct p as [|c p]; eexists _, _; repeat (split; [reflexivity|]); [|rewrite kind_cases]; reflexivity)].
  - cbn [parts_layout map concat flat_map app fold_right]. split; [exact A|]. split; [exact B|]. split; [exact C|]. split; [exact D|exact E].
  - cbn [parts_layout staves_of own_of map concat flat_map app fold_right descs_of groups_in filled].
    split; [f_equal; exact A|]. split; [f_equal; exact B|]. split; [exact C|]. split; [exact D|exact E].
  - destruct Q as (s & bar & QL & QS & QG & QK).
    change (match p with [] => LGroup Brace true (fold_right LStaff LEnd (a :: b :: p)) (parts_layout ps)
                       | _ :: _ => LGroup Bracket false (fold_right LStaff LEnd (a :: b :: p)) (parts_layout ps) end)
      with (parts_layout ((a :: b :: p) :: ps)).
    rewrite QL. cbn [staves_of own_of descs_of groups_in filled].
    rewrite staves_row, own_row, descs_row, groups_row, A, C, D, QS.
    split; [reflexivity|]. split; [exact B|].
    split; [change (map (map ix) ((a :: b :: p) :: ps)) with (map ix (a :: b :: p) :: map (map ix) ps); cbn [fold_right]; rewrite QG; reflexivity|].
    split; [change (map (map ix) ((a :: b :: p) :: ps)) with (map ix (a :: b :: p) :: map (map ix) ps); cbn [flat_map]; rewrite QK; reflexivity|].
    split; [discriminate|]. split; [apply filled_row|exact E].
Qed.
Lemma kids_in ps : forall s bar o i k r, fold_right part_group DNil ps = DCons s bar o i k r -> In i ps.
Proof.
  induction ps as [|p ps IH]; intros s bar o i k r E; [discriminate E|]. cbn [fold_right] in E.
  destruct p as [|a [|b [|c p]]]; cbn [part_group] in E; try (right; exact (IH _ _ _ _ _ _ E)); injection E as _ _ _ E _ _; left; exact E.
Qed.
Lemma one_part (p : list nat) ps : Forall (fun q => q <> []) ps -> In p ps -> concat ps = p -> ps = [p].
Proof.
  intros F I E. apply in_split in I. destruct I as (a & b & ->). apply Forall_app in F. destruct F as [Fa Fb]. apply Forall_inv_tail in Fb.
  rewrite concat_app in E. cbn [concat] in E. apply (f_equal (@length nat)) in E. rewrite !app_length in E.
  destruct a as [|x a]; [|apply Forall_inv in Fa; destruct x; [congruence|cbn in E; lia]].
  destruct b as [|x b]; [reflexivity|apply Forall_inv in Fb; destruct x; [congruence|cbn in E; rewrite app_length in E; lia]].
Qed.
Lemma back (ps : list (list nat)) : map (map N.to_nat) (map (map N.of_nat) ps) = ps.
Proof.
  rewrite map_map. rewrite <- (map_id ps) at 2. apply map_ext. intro p. rewrite map_map. rewrite <- (map_id p) at 2.
  apply map_ext. intro n. apply Nat2N.id.
Qed.

(** Without system decoration a part of several staves becomes a group, of two staves with a
    brace and bar lines through it, of more with a bracket and without; and if it is not the
    only part there is a group around everything, with a bracket unless just one part has one
    staff. *)
Theorem C168_default : forall parts, Forall (fun p => p <> []) parts -> parts <> [] -> StronglySorted Nat.lt (concat parts) ->
  (forall p, parts = [p] -> 2 <= length p -> make_groups (default_tree parts) = Some (part_kind p, p))
  /\ ((forall p, parts = [p] -> length p = 1) ->
      make_groups (default_tree parts)
      = Some ((if length (filter (fun p => length p =? 1) parts) =? 1 then NoSym else Bracket, false, concat parts)
              :: flat_map part_kind parts, concat parts)).
Proof.
  intros parts F NE SS.
  destruct (layout_parts N.to_nat (map (map N.of_nat) parts)) as (A & B & C & D & E). rewrite back in B, C, D.
  set (L := parts_layout (map (map N.of_nat) parts)) in *.
  assert (A' : map N.to_nat (staves_of L) = concat parts) by (rewrite A, concat_map, back; reflexivity).
  assert (NL : staves_of L <> []).
  { intro X. rewrite X in A'. destruct parts as [|p parts]; [congruence|]. apply Forall_inv in F. destruct p; [congruence|discriminate A']. }
  split.
  - intros p -> LEN. clear A B C D E NL L A'. destruct p as [|a [|b p]]; [cbn in LEN; lia|cbn in LEN; lia|].
    unfold default_tree. cbn [concat app fold_right]. rewrite app_nil_r. cbn [concat] in SS. rewrite app_nil_r in SS.
    set (q := a :: b :: p) in *.
    pose proof (make_root N.to_nat) as G.
    assert (Q : map N.to_nat (map N.of_nat q) = q) by (exact (f_equal (hd []) (back [q]))).
    assert (P : exists s bar, part_group q DNil = DCons s bar q q DNil DNil /\ part_kind q = [(s, bar, q)]).
    { subst q. destruct p as [|c p]; eexists _, _; split; reflexivity. }
    destruct P as (s & bar & P1 & P2). rewrite P1, P2. unfold nats_eqb. destruct (list_eq_dec Nat.eq_dec q q); [|congruence].
    specialize (G s bar (fold_right LStaff LEnd (map N.of_nat q)) DNil (filled_row _)).
    rewrite staves_row, own_row, descs_row, groups_row, Q in G. apply G; [discriminate|exact SS].
  - intro ONE.
    assert (DT : default_tree parts = DCons (if length (filter (fun p => length p =? 1) parts) =? 1 then NoSym else Bracket) false
                   (map N.to_nat (own_of L)) (map N.to_nat (staves_of L)) (descs_of N.to_nat L) DNil).
    { unfold default_tree. rewrite <- B, <- C, <- A'.
      assert (LN : length (map N.to_nat (own_of L)) = length (filter (fun p => length p =? 1) parts)).
      { rewrite B. clear. induction parts as [|p parts IH]; [reflexivity|]. cbn [flat_map filter].
        destruct p as [|a [|b p]]; cbn [length Nat.eqb app]; [exact IH|f_equal; exact IH|exact IH]. }
      rewrite LN. destruct (descs_of N.to_nat L) as [|s bar o i k r] eqn:ED; [reflexivity|]. destruct r; [|reflexivity].
      unfold nats_eqb. destruct (list_eq_dec Nat.eq_dec (map N.to_nat (staves_of L)) i) as [X|]; [|reflexivity].
      exfalso. symmetry in C. rewrite A' in X. pose proof (kids_in _ _ _ _ _ _ _ C) as I.
      pose proof (one_part i parts F I X) as P. specialize (ONE i P). rewrite P in C.
      destruct i as [|x [|y i]]; cbn in ONE; try lia. discriminate C. }
    rewrite DT, make_root; [|exact E|exact NL|rewrite A'; exact SS]. rewrite A', D. reflexivity.
Qed.
Print Assumptions C168_default.

(** A score of parts of one staff each and no groups gets a bracket around everything. *)
Theorem C168_bracket_refuted : exists parts, parts = [[0]; [1]; [2]]
  /\ write_deco FNil = [] /\ make_groups (default_tree parts) = Some ([(Bracket, false, [0; 1; 2])], [0; 1; 2]).
Proof. eexists. split; [reflexivity|]. split; vm_compute; reflexivity. Qed.
Print Assumptions C168_bracket_refuted.
(** A subgroup without staves stops the import. *)
Theorem C167_empty_refuted : exists d t, d = S_ "s1{(([<>]))}s2"
  /\ read_deco (fun d => d) [1; 2]%N d = Some t /\ make_groups t = None.
Proof.
  exists (S_ "s1{(([<>]))}s2"), (DCons NoSym false [0; 1] [0; 1] (DCons Brace true [] [] (DCons NoSym true [] [] DNil DNil) DNil) DNil).
  split; [reflexivity|]. split; vm_compute; reflexivity.
Qed.
Print Assumptions C167_empty_refuted.

Example C167_nonvacuous :
  StronglySorted Nat.lt (map N.to_nat (staves_of ex_layout))
  /\ make_groups (top_of N.to_nat ex_layout)
     = Some ([(NoSym, false, [1; 2; 3; 4; 10; 11]); (Bracket, false, [1; 2]); (NoSym, true, [3; 4; 10; 11]); (Brace, true, [4; 10])],
             [1; 2; 3; 4; 10; 11]).
Proof. split; [repeat constructor|vm_compute; reflexivity]. Qed.
Example C167_none_lost_nonvacuous :
  make_groups (DCons NoSym false [0; 3] [0; 1; 2; 3] (DCons Brace true [1; 2] [1; 2] DNil DNil) DNil)
  = Some ([(NoSym, false, [0; 1; 2; 3]); (Brace, true, [1; 2])], [0; 1; 2; 3])
  /\ make_groups (DCons NoSym false [0] [0; 1] DNil DNil) = None.
Proof. split; vm_compute; reflexivity. Qed.
Example C168_nonvacuous :
  Forall (fun p => p <> []) [[0]; [1; 2]; [3; 4; 5]] /\ StronglySorted Nat.lt (concat [[0]; [1; 2]; [3; 4; 5]])
  /\ make_groups (default_tree [[0]; [1; 2]; [3; 4; 5]])
     = Some ([(NoSym, false, [0; 1; 2; 3; 4; 5]); (Brace, true, [1; 2]); (Bracket, false, [3; 4; 5])], [0; 1; 2; 3; 4; 5])
  /\ make_groups (default_tree [[0; 1]]) = Some ([(Brace, true, [0; 1])], [0; 1]).
Proof.
  split; [repeat (constructor; [discriminate|]); constructor|]. split; [repeat constructor|]. split; vm_compute; reflexivity.
Qed.
