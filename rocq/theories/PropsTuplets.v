(** C111: the tuplets that the notes of a layer of a Humdrum measure get. *)
From Coq Require Import ZArith QArith Qpower Lia.
From Verif Require Import PyStr RecipModel RecipProofs DurationModel Pow2Proofs DurationProofs TupletModel PropsTupletGroups TupletProofs TupletProofs2 TupletProofs3 TupletProofs4.
Local Close Scope Q_scope.

(** Tuplets as they should be: an ordinary note has none; the others are in brackets with
    a start, a stop and the same numbers, which make the length of each note without
    its dots a power of two. *)
Definition written (a n : Z) (x : item) : Prop := ~ ordinary x /\ is_power_of_two (i_nodots x * (inject_Z a / inject_Z n)).
Inductive Bracketed : list item -> list (option (Z * Z * place)) -> Prop :=
  | B_nil : Bracketed [] []
  | B_plain x l ts : ordinary x -> Bracketed l ts -> Bracketed (x :: l) (None :: ts)
  | B_tuplet x s y l ts a n : (0 < a)%Z -> (0 < n)%Z -> Forall (written a n) (x :: s ++ [y]) -> Bracketed l ts ->
      Bracketed (x :: s ++ y :: l) (Some (a, n, PStart) :: map (fun _ => Some (a, n, PMiddle)) s ++ Some (a, n, PStop) :: ts).

(** The numbers of the groups (C110). *)
Definition numbers (l : list item) : list nat := map fst (groups l).
(** [sound]: every group has two notes or more, all shorter than whole notes, with
    undotted lengths that differ by powers of two. *)
Definition sound (l : list item) : Prop := timed l /\ fit l (numbers l).
(** The note is the first of its group. *)
Definition opens (l : list item) (i : nat) : Prop :=
  exists g, nth_error (numbers l) i = Some g /\ g <> 0 /\ forall j, j < i -> nth_error (numbers l) j <> Some g.
Definition first_of_beam (l : list item) (i : nat) : Prop :=
  exists x, nth_error l i = Some x /\ i_beam x <> 0 /\ forall j y, j < i -> nth_error l j = Some y -> i_beam y <> i_beam x.
Definition last_of_beam (l : list item) (i : nat) : Prop :=
  exists x, nth_error l i = Some x /\ i_beam x <> 0 /\ forall j y, i < j -> nth_error l j = Some y -> i_beam y <> i_beam x.
Definition forced (l : list item) (i : nat) : Prop := nth_error (map snd (groups l)) i = Some true.
(** A beam that began at [i] or before goes on after [i]. *)
Definition running (l : list item) (i : nat) : Prop :=
  exists j, j <= i /\ first_of_beam l j /\ ~ forced l j /\ forall m, j < m <= i -> ~ forced l m /\ (first_of_beam l m \/ ~ last_of_beam l m).
Definition starts (l : list item) (i : nat) : Prop := exists t, nth_error (tupletsOf l) i = Some (Some (t, PStart)).

(** * The beams. *)
Lemma bStart_spec l i x : nth_error l i = Some x -> (bStart (firstn i l) x = true <-> first_of_beam l i).
Proof.
  intros E. unfold bStart, first_of_beam. rewrite andb_true_iff, !negb_true_iff, Nat.eqb_neq. split.
  - intros [N X]. exists x. split; [exact E|]. split; [exact N|]. intros j y J EY Z. assert (existsb (inBeamB (i_beam x)) (firstn i l) = true); [|congruence].
    apply existsb_exists. exists y. split; [|apply Nat.eqb_eq; exact Z]. apply nth_error_In with j. rewrite <- EY. clear - J. revert l j J. induction i as [|i IH]; intros [|a l] [|j] J; try lia; cbn; try reflexivity. apply IH. lia.
  - intros (x' & E' & N & H). rewrite E in E'. injection E' as <-. split; [exact N|]. apply existsb_none. intros y I. apply In_nth_error in I. destruct I as [j J].
    assert (L : j < i). { assert (j < length (firstn i l)) by (apply nth_error_Some; congruence). rewrite firstn_length in H0. lia. }
    apply Nat.eqb_neq. apply (H j y L). rewrite <- J. clear - L. revert l j L. induction i as [|i IH]; intros [|a l] [|j] J; try lia; cbn; try reflexivity. apply IH. lia.
Qed.
Lemma nth_skipn {A} : forall i (l : list A) j, nth_error (skipn i l) j = nth_error l (i + j).
Proof. induction i as [|i IH]; intros [|a l] j; cbn; try reflexivity; [destruct j; reflexivity|apply IH]. Qed.
Lemma bEnd_spec l i x : nth_error l i = Some x -> (bEnd x (skipn (S i) l) = true <-> last_of_beam l i).
Proof.
  intros E. unfold bEnd, last_of_beam. rewrite andb_true_iff, !negb_true_iff, Nat.eqb_neq. split.
  - intros [N X]. exists x. split; [exact E|]. split; [exact N|]. intros j y J EY Z. assert (existsb (inBeamB (i_beam x)) (skipn (S i) l) = true); [|congruence].
    apply existsb_exists. exists y. split; [|apply Nat.eqb_eq; exact Z]. apply nth_error_In with (j - S i). rewrite nth_skipn. replace (S i + (j - S i)) with j by lia. exact EY.
  - intros (x' & E' & N & H). rewrite E in E'. injection E' as <-. split; [exact N|]. apply existsb_none. intros y I. apply In_nth_error in I. destruct I as [j J].
    rewrite nth_skipn in J. apply Nat.eqb_neq. apply (H (S i + j) y); [lia|exact J].
Qed.
Lemma inBeams_nth : forall l prev pre i c, nth_error l i = Some c -> nth i (inBeams prev pre l) false =
  (if c_force c then false else if bStart (pre ++ map c_item (firstn i l)) (c_item c) then true else if bEnd (c_item c) (map c_item (skipn (S i) l)) then false
   else match i with 0 => prev | S i' => nth i' (inBeams prev pre l) false end).
Proof.
  induction l as [|d l IH]; intros prev pre i c E; [destruct i; discriminate|]. destruct i as [|i].
  - injection E as ->. cbn. rewrite app_nil_r. reflexivity.
  - cbn [nth_error] in E. cbn [inBeams]. set (b := if c_force d then _ else _). cbn [nth]. rewrite (IH b (pre ++ [c_item d]) i c E). cbn [firstn map]. rewrite <- app_assoc. cbn [app].
    change (skipn (S (S i)) (d :: l)) with (skipn (S i) l). destruct i; reflexivity.
Qed.
Lemma inBeams_spec l L : map c_item L = l -> map c_force L = map snd (groups l) -> forall i, i < length l -> (nth i (inBeams false [] L) false = true <-> running l i).
Proof.
  intros EI EF. assert (ST : forall i, i < length l -> exists c, nth_error L i = Some c /\
    nth i (inBeams false [] L) false = (if c_force c then false else if bStart (firstn i l) (c_item c) then true else if bEnd (c_item c) (skipn (S i) l) then false else match i with 0 => false | S i' => nth i' (inBeams false [] L) false end) /\
    (c_force c = true <-> forced l i) /\ nth_error l i = Some (c_item c)).
  { intros i I. destruct (nth_error L i) as [c|] eqn:E; [|apply nth_error_None in E; rewrite <- EI, map_length in I; lia]. exists c. split; [reflexivity|]. split; [|split].
    - rewrite (inBeams_nth L false [] i c E). cbn [app]. rewrite <- firstn_map, <- skipn_map, EI. reflexivity.
    - unfold forced. rewrite <- EF, nth_error_map, E. cbn. split; [intros ->; reflexivity|congruence].
    - rewrite <- EI, nth_error_map, E. reflexivity. }
  induction i as [|i IH]; intros I; destruct (ST _ I) as (c & EC & -> & FO & EL).
  - destruct (c_force c) eqn:FC; [|destruct (bStart (firstn 0 l) (c_item c)) eqn:BS].
    + split; [discriminate|]. intros (j & J & _ & N & _). assert (j = 0) as -> by lia. exfalso. apply N, FO. reflexivity.
    + split; [intros _|reflexivity]. apply (bStart_spec l 0 _ EL) in BS. exists 0. split; [lia|]. split; [exact BS|]. split; [intros X; apply FO in X; discriminate|]. intros m M. lia.
    + split; [destruct (bEnd _ _); discriminate|]. intros (j & J & F & _). assert (j = 0) as -> by lia. apply (bStart_spec l 0 _ EL) in F. congruence.
  - specialize (IH ltac:(lia)). destruct (c_force c) eqn:FC.
    { split; [discriminate|]. intros (j & J & _ & N & M). exfalso. destruct (Nat.eq_dec j (S i)) as [-> | D]; [apply N, FO; reflexivity|]. apply (M (S i)); [lia|]. apply FO. reflexivity. }
    assert (NF : ~ forced l (S i)) by (intros X; apply FO in X; discriminate). destruct (bStart (firstn (S i) l) (c_item c)) eqn:BS.
    { split; [intros _|reflexivity]. apply (bStart_spec l (S i) _ EL) in BS. exists (S i). split; [lia|]. split; [exact BS|]. split; [exact NF|]. intros m M. lia. }
    assert (NS : ~ first_of_beam l (S i)) by (intros X; apply (bStart_spec l (S i) _ EL) in X; congruence). destruct (bEnd (c_item c) (skipn (S (S i)) l)) eqn:BE.
    { split; [discriminate|]. apply (bEnd_spec l (S i) _ EL) in BE. intros (j & J & F & _ & M). exfalso. destruct (Nat.eq_dec j (S i)) as [-> | D]; [contradiction|]. destruct (M (S i)) as [_ [X | X]]; [lia|contradiction|contradiction]. }
    assert (NE : ~ last_of_beam l (S i)) by (intros X; apply (bEnd_spec l (S i) _ EL) in X; congruence). rewrite IH. split; intros (j & J & F & N & M).
    + exists j. split; [lia|]. split; [exact F|]. split; [exact N|]. intros m MM. destruct (Nat.eq_dec m (S i)) as [-> | D]; [split; [exact NF|right; exact NE]|apply M; lia].
    + destruct (Nat.eq_dec j (S i)) as [-> | D]; [contradiction|]. exists j. split; [lia|]. split; [exact F|]. split; [exact N|]. intros m MM. apply M. lia.
Qed.

(** * The stages together. *)
Lemma cells_st : forall gs l seen i c, nth_error (cells seen gs l) i = Some c ->
  (c_st c <> 0 <-> c_grp c <> 0 /\ ~ In (c_grp c) seen /\ forall j, j < i -> nth_error (map fst gs) j <> Some (c_grp c)).
Proof.
  induction gs as [|[g f] gs IH]; intros [|x l] seen i c E; try (destruct i; discriminate). cbn [cells] in E. destruct (if g =? 0 then _ else ratio x) as [[a n] m]. destruct i as [|i].
  - injection E as <-. cbn. destruct (g =? 0) eqn:G; cbn; [apply Nat.eqb_eq in G; subst g; lia|]. apply Nat.eqb_neq in G. destruct (existsb (Nat.eqb g) seen) eqn:X.
    + apply existsb_exists in X. destruct X as (g' & I & X). apply Nat.eqb_eq in X. subst g'. tauto.
    + split; [intros _|tauto]. split; [exact G|]. split; [|intros j J; lia]. intros I. assert (existsb (Nat.eqb g) seen = true); [|congruence]. apply existsb_exists. exists g. split; [exact I|apply Nat.eqb_refl].
  - cbn [nth_error] in E. rewrite (IH _ _ _ _ E). split.
    + intros (A & B & C). split; [exact A|]. split; [intros I; apply B; right; exact I|]. intros [|j] J; [cbn; intros X; injection X as X; apply B; left; exact X|]. apply C. lia.
    + intros (A & B & C). split; [exact A|]. split; [|intros j J; apply (C (S j)); lia]. intros [X | I]; [|contradiction]. apply (C 0); [lia|]. cbn. congruence.
Qed.
Lemma WF_nonord_grp gr k k' l c : WF gr k k' l -> gr = true -> 0 < k -> In c l -> ~ ordinary (c_item c) -> c_grp c <> 0.
Proof.
  induction 1 as [k|k k' d l O B G W IH|k k' b l B W IH]; intros GR K I NO; [destruct I| |].
  - destruct I as [<- | I]; [contradiction|]. apply IH; assumption.
  - apply in_app_iff in I. destruct I as [I | I]; [|apply IH; [exact GR|lia|exact I|exact NO]]. destruct B as (q & h & m & t & _ & _ & _ & _ & _ & _ & _ & F). rewrite Forall_forall in F. destruct (F c I) as [_ X]. specialize (X GR). lia.
Qed.
Lemma stages l : sound l -> exists k1 k2 ib, let L0 := cells [] (groups l) l in let L1 := map positive_act L0 in
  WF true 1 k1 L0 /\ map c_item L0 = l /\ map c_grp L0 = numbers l /\ ib = inBeams false [] L1 /\ WF false 1 k1 L1 /\
  prepare l = assignScalings (regroup 0 (upto ib L1 (length L1))) /\ WF true 1 k2 (prepare l).
Proof.
  intros [T F]. pose proof (C110_groups l T) as G. destruct (cells_WF [] 1 l (groups l) G ltac:(lia) F [] ltac:(intros g [])) as [k1 W].
  set (L0 := cells [] (groups l) l) in *. pose proof (Grouped_length _ _ _ _ G) as LG.
  assert (AD : adjusted L0 = L0).
  { assert (H : forall c d, In c L0 -> In d L0 -> c_grp c = c_grp d -> c_act c = c_act d /\ c_nor c = c_nor d).
    { intros c d IC ID E. pose proof (cells_rated (groups l) l []) as R. fold L0 in R. rewrite Forall_forall in R. destruct (R c IC) as [RC _]. destruct (R d ID) as [RD _]. rewrite E in RC.
      destruct (c_grp d =? 0) eqn:Z; [injection RC as -> -> _; injection RD as -> -> _; split; reflexivity|]. apply Nat.eqb_neq in Z.
      apply cells_in in IC, ID. destruct F as (_ & F2 & F3). fold (numbers l) in IC, ID. rewrite E in IC.
      destruct (ratio_spec (c_item c) (F2 _ _ IC Z)) as (m & EM & _ & _ & K). destruct (K (c_item d) (F2 _ _ ID Z) (F3 _ _ _ IC ID Z)) as (m' & EM' & Q). rewrite EM in RC. rewrite EM' in RD.
      injection RC as -> -> _. injection RD as -> -> _. unfold qden, qnum. rewrite (Qred_complete _ _ Q). split; reflexivity. }
    unfold adjusted. destruct L0 as [|p l']; [reflexivity|]. apply adjust_id. exact H. }
  assert (W1 : WF true 1 k1 (map positive_act L0)) by (apply positive_WF; exact W).
  assert (RN : renumber 0 (map positive_act L0) = map positive_act L0) by (apply (renumber_id true 0 k1); exact W1).
  set (L1 := map positive_act L0) in *.
  assert (PR : prepare l = assignScalings (regroup 0 (upto (inBeams false [] L1) L1 (length L1)))).
  { unfold prepare. fold L0. rewrite AD. fold L1. rewrite RN. reflexivity. }
  destruct (merge_all (inBeams false [] L1) L1 k1 (WF_weak _ _ _ W1) (length L1)) as (k2 & W2 & _ & _).
  exists k1, k2, (inBeams false [] L1). cbv zeta. split; [exact W|]. split; [apply cells_item; exact LG|]. split; [apply (cells_grp (groups l) l []); exact LG|]. split; [reflexivity|]. split; [apply WF_weak; exact W1|]. split; [exact PR|].
  rewrite PR. apply assign_WF. apply regroup_WF; [lia|exact W2].
Qed.
Lemma notes_bare t : forall m l, Forall bare m -> notesFrom (Some t) (m ++ l) = map (fun _ => Some (t, PMiddle)) (map c_item m) ++ notesFrom (Some t) l.
Proof. induction m as [|c m IH]; intros l F; [reflexivity|]. apply Forall_cons_iff in F. destruct F as [[S E] F]. cbn. rewrite S, E. cbn. f_equal. apply IH. exact F. Qed.
Lemma WF_bracketed k k' l : WF true k k' l -> 0 < k -> Bracketed (map c_item l) (notesFrom None l).
Proof.
  induction 1 as [k|k k' c l O [S E] G W IH|k k' b l B W IH]; intros K; [constructor| |].
  - cbn. rewrite S. cbn. apply B_plain; [exact O|apply IH; exact K].
  - destruct B as (q & h & m & t & E & Q & A & HB & C & D & F & G). subst b. cbn. rewrite A. rewrite (proj2 (Nat.eqb_neq k 0)) by lia. cbn [negb]. rewrite <- app_assoc. rewrite notes_bare by exact C. cbn. rewrite D, F. rewrite (proj2 (Nat.eqb_neq k 0)) by lia. cbn [negb].
    rewrite map_app. cbn. set (a := (c_act h * c_scale h)%Z). set (n := (c_nor h * c_scale h)%Z). 
    pose proof (Forall_inv G) as [(_ & _ & P & N & _ & SC) _].
    assert (A0 : (0 < a)%Z) by (apply Z.mul_pos_pos; lia). assert (NQ : (inject_Z n == q * inject_Z a)%Q) by (unfold a, n; rewrite !inject_Z_mult, N; ring).
    assert (N0 : (0 < n)%Z). { rewrite Zlt_Qlt. rewrite NQ. setoid_replace (inject_Z 0) with (q * 0)%Q by (unfold Qeq; cbn; lia). apply Qmult_lt_l; [exact Q|]. rewrite Zlt_Qlt in A0. exact A0. }
    assert (WR : forall c, In c (h :: m ++ [t]) -> written a n (c_item c)).
    { intros c I. rewrite Forall_forall in G. destruct (G c I) as [(NO & _ & _ & _ & PW & _) _]. split; [exact NO|]. eapply pow2_eq; [|exact PW]. rewrite NQ. field. split; [|intros X; rewrite X in Q; discriminate]. intros X. rewrite Zlt_Qlt in A0. rewrite X in A0. discriminate. }
    apply (B_tuplet (c_item h) (map c_item m) (c_item t) (map c_item l)); [exact A0|exact N0| |apply IH; lia].
    apply Forall_forall. intros x I. replace (c_item h :: map c_item m ++ [c_item t]) with (map c_item (h :: m ++ [t])) in I by (cbn; rewrite map_app; reflexivity). apply in_map_iff in I. destruct I as (c & <- & I). apply WR. exact I.
Qed.
Lemma nth_ext_ {A} : forall l l' : list A, (forall i, nth_error l i = nth_error l' i) -> l = l'.
Proof.
  induction l as [|x l IH]; intros [|y l'] H; [reflexivity|specialize (H 0); discriminate|specialize (H 0); discriminate|].
  pose proof (H 0) as E. injection E as ->. f_equal. apply IH. intros i. apply (H (S i)).
Qed.
(** What is missing: groups that are not [sound] (see the counterexamples below). *)
Theorem C111_brackets_partial : forall l, sound l -> Bracketed l (tupletsOf l).
Proof.
  intros l S. destruct (stages l S) as (k1 & k2 & ib & W0 & I0 & G0 & EI & W1 & PR & W2).
  pose proof (WF_bracketed _ _ _ W2 ltac:(lia)) as B. fold (tupletsOf l) in B. replace (map c_item (prepare l)) with l in B; [exact B|].
  rewrite PR. rewrite (proj1 (assign_fields _)), (proj1 (regroup_fields _ 0)). set (L1 := map positive_act (cells [] (groups l) l)) in *.
  destruct (merge_all ib L1 k1 W1 (length L1)) as (k3 & _ & LL & H). symmetry. transitivity (map c_item L1).
  - apply nth_ext_. intros i. rewrite !nth_error_map. destruct (nth_error L1 i) as [c|] eqn:E.
    + destruct (H i c E) as (c' & E' & X & _). rewrite E'. cbn. congruence.
    + apply nth_error_None in E. rewrite (proj2 (nth_error_None _ _)) by lia. reflexivity.
  - unfold L1. rewrite map_map. transitivity (map c_item (cells [] (groups l) l)); [|exact I0]. apply map_ext. intros c. apply (positive_fields c).
Qed.
Print Assumptions C111_brackets_partial.
Definition note (q : Q) (b : nat) : item := mkI q q b None None false.
Example C111_brackets_nonvacuous :
  let l := [note 1 0; note (1 # 3) 1; note (1 # 3) 1; note (1 # 3) 1; note (1 # 6) 2; note (1 # 6) 2; note (1 # 6) 2; note (1 # 6) 2; note (1 # 6) 2; note (1 # 6) 2] in
  sound l /\
  tupletsOf l = [None; Some (3, 2, PStart); Some (3, 2, PMiddle); Some (3, 2, PStop);
    Some (6, 4, PStart); Some (6, 4, PMiddle); Some (6, 4, PMiddle); Some (6, 4, PMiddle); Some (6, 4, PMiddle); Some (6, 4, PStop)]%Z.
Proof.
  split; [|vm_compute; reflexivity]. split; [repeat constructor|].
  set (l := [note 1 0; note (1 # 3) 1; note (1 # 3) 1; note (1 # 3) 1; note (1 # 6) 2; note (1 # 6) 2; note (1 # 6) 2; note (1 # 6) 2; note (1 # 6) 2; note (1 # 6) 2]).
  assert (E : numbers l = [0; 1; 1; 1; 2; 2; 2; 2; 2; 2]) by (vm_compute; reflexivity). rewrite E. unfold l. split; [|split].
  - intros [|[|[|g]]] N; cbn; lia.
  - cbn. intros x g I N. repeat (destruct I as [I | I]; [injection I as <- <-; first [congruence | split; reflexivity]|]). destruct I.
  - cbn. intros x y g I J N. exists 0%Z.
    repeat (destruct I as [I | I]; [injection I as <- <-; first [congruence | repeat (destruct J as [J | J]; [first [discriminate J | injection J as <-; reflexivity]|]); destruct J]|]). destruct I.
Qed.

(** A bracket starts at the first note of a group, except where a beam goes on from a
    tuplet note before it that has the same ratio. *)
Lemma notes_start : forall l t i c, nth_error l i = Some c -> ((exists u, nth_error (notesFrom t l) i = Some (Some (u, PStart))) <-> c_st c <> 0).
Proof.
  induction l as [|d l IH]; intros t i c E; [destruct i; discriminate|]. destruct i as [|i].
  - injection E as ->. cbn. destruct (c_st c =? 0) eqn:S.
    + apply Nat.eqb_eq in S. cbn. split; [|contradiction]. intros [u X]. destruct t as [t|]; [destruct (negb (c_en c =? 0)); discriminate|discriminate].
    + apply Nat.eqb_neq in S. cbn. split; [intros _; exact S|]. intros _. eexists. reflexivity.
  - cbn [nth_error] in E. cbn [notesFrom]. destruct (negb (c_st d =? 0)); [apply (IH _ i c E)|]. destruct t as [t|]; [destruct (negb (c_en d =? 0))|]; apply (IH _ i c E).
Qed.
Theorem C111_starts_partial : forall l, sound l -> forall i, starts l i <-> opens l i /\
  ~ exists j x y, i = S j /\ nth_error l j = Some x /\ nth_error l i = Some y /\ running l j /\ ~ ordinary x /\ related x y.
Proof.
  intros l SO i. destruct (stages l SO) as (k1 & k2 & ib & W0 & I0 & G0 & EI & W1 & PR & W2). destruct SO as [T F].
  set (L0 := cells [] (groups l) l) in *. set (L1 := map positive_act L0) in *.
  assert (LEN : length L0 = length l) by (rewrite <- I0, map_length; reflexivity).
  destruct (merge_all ib L1 k1 W1 (length L1)) as (k3 & _ & LL & H).
  assert (LP : map c_st (prepare l) = map c_st (upto ib L1 (length L1))) by (rewrite PR; rewrite (proj2 (assign_fields _)); apply (regroup_fields _ 0)).
  destruct (nth_error L0 i) as [c0|] eqn:E0.
  2:{ apply nth_error_None in E0. split.
      - intros [t X]. exfalso. assert (N : nth_error (tupletsOf l) i <> None) by congruence. apply nth_error_Some in N.
        assert (NL : forall L t, length (notesFrom t L) = length L). { clear. induction L as [|c L IH]; intros t; [reflexivity|]. cbn. destruct (negb (c_st c =? 0)); [cbn; f_equal; apply IH|]. destruct t as [t|]; [destruct (negb (c_en c =? 0))|]; cbn; f_equal; apply IH. }
        unfold tupletsOf in N. rewrite NL in N. rewrite <- (map_length c_st (prepare l)), LP, map_length, LL in N. unfold L1 in N. rewrite map_length in N. lia.
      - intros [(g & X & _) _]. exfalso. assert (N : nth_error (numbers l) i <> None) by congruence. apply nth_error_Some in N. rewrite <- G0, map_length in N. lia. }
  assert (E1 : nth_error L1 i = Some (positive_act c0)) by (unfold L1; rewrite nth_error_map, E0; reflexivity).
  destruct (H i _ E1) as (c & EC & _ & _ & ST). destruct (positive_fields c0) as (P1 & P2 & _ & P4 & _ & P6). rewrite P2 in ST.
  assert (EP : exists c', nth_error (prepare l) i = Some c' /\ c_st c' = c_st c).
  { assert (X : nth_error (map c_st (prepare l)) i = Some (c_st c)) by (rewrite LP, nth_error_map, EC; reflexivity). rewrite nth_error_map in X. destruct (nth_error (prepare l) i) as [c'|]; [|discriminate]. exists c'. split; [reflexivity|]. injection X as X. exact X. }
  destruct EP as (c' & EC' & SC'). unfold starts, tupletsOf. rewrite (notes_start _ None i c' EC'), SC'.
  pose proof (cells_st (groups l) l [] i c0 E0) as CS. fold (numbers l) in CS.
  assert (EN : nth_error (numbers l) i = Some (c_grp c0)) by (rewrite <- G0, nth_error_map, E0; reflexivity).
  assert (EL : nth_error l i = Some (c_item c0)) by (rewrite <- I0, nth_error_map, E0; reflexivity).
  assert (OP : opens l i <-> c_st c0 <> 0).
  { rewrite CS. split.
    - intros (g & X & N & Y). rewrite EN in X. injection X as <-. split; [exact N|]. split; [intros []|exact Y].
    - intros (N & _ & Y). exists (c_grp c0). split; [exact EN|]. split; assumption. }
  assert (TK : c_grp c0 <> 0 -> (taken ib L1 (length L1) i (positive_act c0) <-> exists j x y, i = S j /\ nth_error l j = Some x /\ nth_error l i = Some y /\ running l j /\ ~ ordinary x /\ related x y)).
  { intros GN.
    assert (RT : forall c, In c L0 -> c_grp c <> 0 -> c_mul c = snd (ratio (c_item c)) /\ short (c_item c)).
    { intros d I N. pose proof (cells_rated (groups l) l []) as R. fold L0 in R. rewrite Forall_forall in R. destruct (R d I) as [RC _]. rewrite (proj2 (Nat.eqb_neq _ _) N) in RC. split; [rewrite <- RC; reflexivity|].
      apply cells_in in I. destruct F as (_ & F2 & _). apply (F2 _ _ I N). }
    assert (IB : forall j, j < length l -> (nth j ib false = true <-> running l j)).
    { rewrite EI. apply inBeams_spec.
      - unfold L1. rewrite map_map. transitivity (map c_item L0); [|exact I0]. apply map_ext. intros d. apply (positive_fields d).
      - unfold L1. rewrite map_map. transitivity (map c_force L0); [apply map_ext; intros d; apply (positive_fields d)|]. unfold L0. apply (cells_grp (groups l) l []). pose proof (C110_groups l T) as G. apply (Grouped_length _ _ _ _ G). }
    assert (I0c : In c0 L0) by (eapply nth_error_In; exact E0). split.
    - intros (j & p1 & EJ & JL & X & Y & Z & M). unfold L1 in Y. rewrite nth_error_map in Y. destruct (nth_error L0 j) as [p|] eqn:EPJ; [|discriminate]. injection Y as <-. destruct (positive_fields p) as (Q1 & _ & _ & Q4 & _ & Q6). rewrite Q1 in Z. rewrite Q6, P6 in M.
      assert (IP : In p L0) by (eapply nth_error_In; exact EPJ). assert (GP : c_grp p <> 0) by (eapply (WF_nonord_grp true 1 k1 L0 p); [exact W0|reflexivity|lia|exact IP|exact Z]).
      exists j, (c_item p), (c_item c0). split; [exact EJ|]. split; [rewrite <- I0, nth_error_map, EPJ; reflexivity|]. split; [exact EL|]. split; [apply IB; [rewrite <- LEN; apply nth_error_Some; congruence|exact X]|]. split; [exact Z|].
      destruct (RT p IP GP) as [R1 S1]. destruct (RT c0 I0c GN) as [R2 S2]. rewrite R1, R2 in M. apply ratio_same; assumption.
    - intros (j & x & y & EJ & XJ & XI & RU & NO & RE). rewrite EL in XI. injection XI as <-. rewrite <- I0, nth_error_map in XJ. destruct (nth_error L0 j) as [p|] eqn:EPJ; [|discriminate]. injection XJ as <-.
      destruct (positive_fields p) as (Q1 & _ & _ & Q4 & _ & Q6). assert (IP : In p L0) by (eapply nth_error_In; exact EPJ). assert (GP : c_grp p <> 0) by (eapply (WF_nonord_grp true 1 k1 L0 p); [exact W0|reflexivity|lia|exact IP|exact NO]).
      exists j, (positive_act p). split; [exact EJ|]. assert (JL : j < length L0) by (apply nth_error_Some; congruence). split; [unfold L1; rewrite map_length; exact JL|]. split; [apply IB; [lia|exact RU]|]. split; [unfold L1; rewrite nth_error_map, EPJ; reflexivity|].
      rewrite Q1, Q6, P6. split; [exact NO|]. destruct (RT p IP GP) as [R1 S1]. destruct (RT c0 I0c GN) as [R2 S2]. rewrite R1, R2.
      destruct (ratio_spec _ S1) as (m & EM & _ & _ & K). destruct (K _ S2 RE) as (m' & EM' & Q). rewrite EM, EM'. cbn. symmetry. exact Q. }
  rewrite OP. split.
  - intros N. assert (S0 : c_st c0 <> 0) by (intros X; apply N, ST; left; exact X). split; [exact S0|]. intros X. apply N, ST. right. apply TK; [|exact X]. apply CS in S0. apply S0.
  - intros [S0 NX] X. apply ST in X. destruct X as [X | X]; [contradiction|]. apply NX, TK; [|exact X]. apply CS in S0. apply S0.
Qed.
Print Assumptions C111_starts_partial.
(** A beam with two triplets of sixteenths, and one with a triplet and a quintuplet. *)
Example C111_starts_nonvacuous :
  let l := [note (1 # 6) 1; note (1 # 6) 1; note (1 # 6) 1; note (1 # 6) 1; note (1 # 6) 1; note (1 # 6) 1; note (1 # 4) 1;
            note (1 # 6) 2; note (1 # 6) 2; note (1 # 6) 2; note (1 # 10) 2; note (1 # 10) 2; note (1 # 10) 2; note (1 # 10) 2; note (1 # 10) 2; note (1 # 4) 2] in
  sound l /\
  map (fun t => match t with Some (_, PStart) => true | _ => false end) (tupletsOf l) =
  [true; false; false; false; false; false; false; true; false; false; true; false; false; false; false; false].
Proof.
  cbv zeta. set (l := note (1 # 6) 1 :: _). split; [|vm_compute; reflexivity]. split; [repeat constructor|].
  assert (E : exists ns, numbers l = ns /\ ns = [1; 1; 1; 2; 2; 2; 0; 3; 3; 3; 4; 4; 4; 4; 4; 0]) by (eexists; split; vm_compute; reflexivity).
  destruct E as (ns & -> & ->). unfold l. split; [|split].
  - intros [|[|[|[|[|g]]]]] N; cbn; lia.
  - cbn. intros x g I N. repeat (destruct I as [I | I]; [injection I as <- <-; first [congruence | split; reflexivity]|]). destruct I.
  - cbn. intros x y g I J N. exists 0%Z.
    repeat (destruct I as [I | I]; [injection I as <- <-; first [congruence | repeat (destruct J as [J | J]; [first [discriminate J | injection J as <-; reflexivity]|]); destruct J]|]). destruct I.
Qed.

(** Such a note keeps its length: it is written with its own dots, and with the length
    that its tuplet makes of the written one. *)
Theorem C111_written : forall a n x k, (0 < a)%Z -> (0 < n)%Z -> written a n x -> k <= 3 -> (0 < i_nodots x)%Q -> (i_dur x == i_nodots x * (2 - (1 # 2) ^ Z.of_nat k))%Q ->
  exists d, shownAs x (a, n) = Some (d, k) /\ (d * (2 - (1 # 2) ^ Z.of_nat k) * (inject_Z n / inject_Z a) == i_dur x)%Q.
Proof.
  intros a n x k A N [_ P] K X D. unfold shownAs. cbn [fst snd]. set (q := (i_dur x / (inject_Z n / inject_Z a))%Q).
  assert (A0 : ~ (inject_Z a == 0)%Q) by (unfold Qeq; cbn; lia). assert (N0 : ~ (inject_Z n == 0)%Q) by (unfold Qeq; cbn; lia).
  assert (Q : (q == i_nodots x * (inject_Z a / inject_Z n) * dot_factor k)%Q) by (unfold q; rewrite D, dot_factor_closed; field; auto).
  set (b := (i_nodots x * (inject_Z a / inject_Z n))%Q) in *. assert (B0 : (0 < b)%Q) by (destruct P as [z ->]; apply pow2_pos).
  assert (QB : forall j c, (dot_factor j * c == 1)%Q -> j = k -> (q * c == b)%Q) by (intros j c E ->; rewrite Q, <- Qmult_assoc, E; ring).
  assert (NP : forall c z, (0 <= c)%Q -> ((forall e, ~ (c == 2 ^ e)%Q) -> isPowerOfTwo (2 ^ z * c) = false)).
  { intros c z C H. apply not_true_is_false. intros T. apply isPowerOfTwo_spec in T; [|apply Qmult_le_0_compat; [apply Qlt_le_weak, pow2_pos|exact C]]. destruct T as [e T]. apply (H (e - z)%Z). unfold Z.sub. rewrite pow2_add, Qpower_opp, <- T. field. intros Y. pose proof (pow2_pos z) as Y2. rewrite Y in Y2. discriminate. }
  destruct P as [z BZ].
  assert (ODD : forall c, qnum c <> 1%Z -> Z.odd (qnum c) = true -> forall e, ~ (c == 2 ^ e)%Q).
  { intros c C1 C2 e E. assert (IP : isPowerOfTwo c = true). { apply isPowerOfTwo_spec; [rewrite E; apply Qlt_le_weak, pow2_pos|exists e; exact E]. }
    destruct (isPowerOfTwo_cases c) as (j & [Y | (p & Y & HP)]); [rewrite E; apply Qlt_le_weak, pow2_pos|exact IP| |].
    - destruct (qnum_qden_eq c (2 ^ Z.of_nat j) 1 Y) as [Y1 _]; [apply Z.gcd_1_r|]. rewrite Y1 in C1, C2. destruct j; [apply C1; reflexivity|]. rewrite Nat2Z.inj_succ, Z.pow_succ_r in C2 by lia. rewrite Z.odd_mul in C2. discriminate.
    - destruct (qnum_qden_eq c 1 p Y) as [Y1 _]; [apply Z.gcd_1_l|]. apply C1. exact Y1. }
  assert (FALSE : forall c, (0 <= c)%Q -> qnum (dot_factor k * c) <> 1%Z -> Z.odd (qnum (dot_factor k * c)) = true -> isPowerOfTwo (q * c) = false).
  { intros c C C1 C2. rewrite (isPowerOfTwo_proper (q * c) (2 ^ z * (dot_factor k * c))) by (rewrite Q, BZ; ring). apply NP; [|apply ODD; assumption]. apply Qmult_le_0_compat; [|exact C]. destruct k as [|[|[|[|]]]]; try lia; vm_compute; discriminate. }
  assert (TRUE : forall c, (dot_factor k * c == 1)%Q -> isPowerOfTwo (q * c) = true).
  { intros c C. rewrite (isPowerOfTwo_proper (q * c) b) by (apply (QB k); [exact C|reflexivity]). apply isPowerOfTwo_spec; [apply Qlt_le_weak; exact B0|exists z; exact BZ]. }
  assert (END : forall d, (d == b)%Q -> (d * (2 - (1 # 2) ^ Z.of_nat k) * (inject_Z n / inject_Z a) == i_dur x)%Q) by (intros d ->; unfold b; rewrite D; field; auto).
  assert (P1 : isPowerOfTwo q = isPowerOfTwo (q * 1)) by (apply isPowerOfTwo_proper; ring).
  unfold computeDurationNoDotsAndNumDots. rewrite P1. destruct k as [|[|[|[|k]]]]; [| | | |lia].
  - rewrite TRUE by reflexivity. exists q. split; [reflexivity|]. apply END. rewrite <- (QB 0 1%Q) by reflexivity. ring.
  - rewrite (FALSE 1%Q) by (vm_compute; congruence). rewrite TRUE by reflexivity. eexists. split; [reflexivity|]. apply END. apply (QB 1); reflexivity.
  - rewrite (FALSE 1%Q), (FALSE (2 # 3)%Q) by (vm_compute; congruence). rewrite TRUE by reflexivity. eexists. split; [reflexivity|]. apply END. apply (QB 2); reflexivity.
  - rewrite (FALSE 1%Q), (FALSE (2 # 3)%Q), (FALSE (4 # 7)%Q) by (vm_compute; congruence). rewrite TRUE by reflexivity. eexists. split; [reflexivity|]. apply END. apply (QB 3); reflexivity.
Qed.
Print Assumptions C111_written.
(** A dotted eighth of a triplet. *)
Example C111_written_nonvacuous :
  let x := mkI (1 # 2) (1 # 3) 0 None None false in
  written 3 2 x /\ exists d, shownAs x (3, 2)%Z = Some (d, 1) /\ (d == 1 # 2)%Q.
Proof.
  cbv zeta. split; [split|].
  - intros O. apply plain_ordinary in O; [|reflexivity]. discriminate.
  - exists (-1)%Z. reflexivity.
  - eexists. split; vm_compute; reflexivity.
Qed.

(** * Counterexamples. *)
(** A tuplet of one note: the tuplet does not stop there, and the ordinary notes after it
    get it too; the two quarter notes become dotted quarter notes of a triplet. *)
Theorem C111_single_refuted : exists l, timed l /\ ~ Bracketed l (tupletsOf l) /\
  exists x t, nth_error l 1 = Some x /\ ordinary x /\ nth_error (tupletsOf l) 1 = Some (Some (t, PMiddle)).
Proof.
  exists [note (1 # 3) 0; note 1 0; note 1 0]. split; [repeat constructor|]. split.
  - intros B. vm_compute in B. inversion B as [| |x s y l ts a n A N F B' E1 E2]; subst. destruct s as [|x2 [|x3 [|x4 s]]]; cbn in *; try discriminate.
  - eexists _, _. split; [reflexivity|]. split; [exists 0%Z; reflexivity|]. vm_compute. reflexivity.
Qed.
Print Assumptions C111_single_refuted.
(** A group with two changes of the ratio: only the first is noticed, so that notes are
    in a tuplet in which they cannot be written; the import fails. *)
Theorem C111_ratio_refuted : exists l, timed l /\ (forall g, g <> 0 -> count_occ Nat.eq_dec (numbers l) g <> 1) /\
  exists i x t p, nth_error l i = Some x /\ nth_error (tupletsOf l) i = Some (Some (t, p)) /\ shownAs x t = None.
Proof.
  exists [note (1 # 3) 0; note (1 # 5) 0; note (1 # 5) 0; note (1 # 5) 0; note (1 # 5) 0; note (1 # 5) 0; note (1 # 3) 0; note (1 # 3) 0].
  split; [repeat constructor|]. split; [intros [|[|g]] N; [congruence|vm_compute; lia|vm_compute; lia]|].
  eexists 6, _, _, _. split; [reflexivity|]. split; vm_compute; reflexivity.
Qed.
Print Assumptions C111_ratio_refuted.
