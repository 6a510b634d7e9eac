(** Staff groups written into the system decoration and read from it: proofs. *)
From Coq Require Import List Arith NArith Bool Ascii String Lia Sorting.Sorted.
From Verif Require Import PyStr PyStrProofs SignifierProofs LyricProofs2 DecoModel.
Import ListNotations.
Local Open Scope list_scope.

(** ** What a score shows: staves and groups of staves, from the top *)
Inductive layout :=
| LEnd
| LStaff (n : N) (rest : layout)
| LGroup (s : symbol) (bar : bool) (inside rest : layout).

Fixpoint staves_of (l : layout) : list N :=
  match l with LEnd => [] | LStaff n r => n :: staves_of r | LGroup _ _ i r => staves_of i ++ staves_of r end.
(** Those that are in no smaller group. *)
Fixpoint own_of (l : layout) : list N :=
  match l with LEnd => [] | LStaff n r => n :: own_of r | LGroup _ _ _ r => own_of r end.
Fixpoint trees_of (l : layout) : forest :=
  match l with
  | LEnd => FNil
  | LStaff _ r => trees_of r
  | LGroup s bar i r => FTree s bar (staves_of i) (trees_of i) (trees_of r)
  end.
Definition has_sign (s : symbol) : Prop := s = Brace \/ s = Bracket \/ s = Square.
(** A line is read as no symbol. *)
Definition sign_read (s : symbol) : symbol := match s with Line => NoSym | _ => s end.
Fixpoint descs_of (ix : N -> nat) (l : layout) : descs :=
  match l with
  | LEnd => DNil
  | LStaff _ r => descs_of ix r
  | LGroup s bar i r =>
      DCons (sign_read s) bar (map ix (own_of i)) (map ix (staves_of i)) (descs_of ix i) (descs_of ix r)
  end.
(** No more than a group whose only mark is that bar lines go through. *)
Definition only_bars (l : layout) : Prop := exists s i, l = LGroup s true i LEnd /\ ~ has_sign s.
(** Groups have staves and something to show, and a group without bar lines through it is more
    than a group with them. *)
Fixpoint plain_groups (l : layout) : Prop :=
  match l with
  | LEnd => True
  | LStaff _ r => plain_groups r
  | LGroup s bar i r =>
      staves_of i <> [] /\ (has_sign s \/ bar = true) /\ (bar = false -> ~ only_bars i)
      /\ plain_groups i /\ plain_groups r
  end.

Fixpoint render (l : layout) : str :=
  match l with
  | LEnd => []
  | LStaff n r => staff_text n ++ render r
  | LGroup s bar i r => pre_string s bar ++ render i ++ post_string s bar ++ render r
  end.

(** ** Writing *)
Definition clean (s : str) : str := filter deco_char s.
Lemma clean_app a b : clean (a ++ b) = clean a ++ clean b.
Proof. apply filter_app. Qed.
Lemma filter_id {A} (f : A -> bool) l : (forall x, In x l -> f x = true) -> filter f l = l.
Proof.
  induction l as [|x l IH]; intro H; [reflexivity|]. cbn. rewrite (H x (or_introl eq_refl)). f_equal. apply IH.
  intros y I. apply H. right. exact I.
Qed.
Lemma filter_nil {A} (f : A -> bool) l : (forall x, In x l -> f x = false) -> filter f l = [].
Proof.
  induction l as [|x l IH]; intro H; [reflexivity|]. cbn. rewrite (H x (or_introl eq_refl)). apply IH.
  intros y I. apply H. right. exact I.
Qed.
Lemma digits_in n c : In c (show_N n) -> is_digit c = true.
Proof. intro I. exact (proj1 (forallb_forall _ _) (show_N_digits n) c I). Qed.
Lemma clean_staff n : clean (staff_text n) = staff_text n.
Proof.
  apply filter_id. intros c [<-|I]; [reflexivity|]. unfold deco_char. rewrite (digits_in _ _ I). reflexivity.
Qed.
Definition plain (l : list N) : str := flat_map staff_text l.
Lemma clean_comma b : clean (if b : bool then S_ "," else []) = [].
Proof. destruct b; reflexivity. Qed.
Lemma clean_staves l : forall i, clean (staves_text i l) = plain l.
Proof.
  induction l as [|n l IH]; intro i; [reflexivity|]. cbn [staves_text plain flat_map].
  rewrite !clean_app, clean_comma, clean_staff, IH. reflexivity.
Qed.
Lemma clean_pre s bar : clean (pre_string s bar) = pre_string s bar.
Proof. destruct s, bar; reflexivity. Qed.
Lemma clean_post s bar : clean (post_string s bar) = post_string s bar.
Proof. destruct s, bar; reflexivity. Qed.
Lemma memN_iff n l : memN n l = true <-> In n l.
Proof.
  unfold memN. rewrite existsb_exists. split; [intros (x & I & E); apply N.eqb_eq in E; subst; exact I|].
  intro I. exists n. split; [exact I|apply N.eqb_refl].
Qed.
Lemma memN_not n l : memN n l = false <-> ~ In n l.
Proof. rewrite <- memN_iff. destruct (memN n l); split; congruence. Qed.

Lemma before_spec low todo b : (forall x, In x b -> (low <= x)%N) -> forall a i,
  (forall x, In x a -> (x < low)%N) ->
  exists o, staves_before i low todo (a ++ b) = (o, filter (fun n => memN n todo) a)
    /\ clean o = plain (filter (fun n => memN n todo) a).
Proof.
  intro B. induction a as [|n a IH]; intros i A.
  - exists []. destruct b as [|n b]; [split; reflexivity|]. cbn [app staves_before].
    assert (E : (low <=? n)%N = true) by (apply N.leb_le; apply B; left; reflexivity). rewrite E. split; reflexivity.
  - cbn [app staves_before]. assert (E : (low <=? n)%N = false) by (apply N.leb_gt; apply A; left; reflexivity).
    rewrite E. destruct (IH (S i)) as (o & Eo & Co); [intros x I; apply A; right; exact I|]. rewrite Eo. cbn [filter].
    destruct (memN n todo); eexists; (split; [reflexivity|]); [|exact Co].
    rewrite !clean_app, clean_comma, clean_staff, Co. reflexivity.
Qed.

Lemma ss_app {A} (R : A -> A -> Prop) a b : StronglySorted R (a ++ b) ->
  StronglySorted R a /\ StronglySorted R b /\ (forall x y, In x a -> In y b -> R x y).
Proof.
  induction a as [|x a IH]; intro H; [split; [constructor|split; [exact H|intros x y []]]|].
  cbn in H. apply StronglySorted_inv in H. destruct H as [H F]. destruct (IH H) as (P & Q & C).
  split; [|split; [exact Q|]].
  - constructor; [exact P|]. apply Forall_app in F. exact (proj1 F).
  - intros u v [<-|I] J; [|exact (C u v I J)]. apply Forall_app in F. exact (proj1 (Forall_forall _ _) (proj2 F) v J).
Qed.

Lemma subgroups_spec : forall L done pend, StronglySorted N.lt (done ++ pend ++ staves_of L) -> plain_groups L ->
  exists o t nums, subgroups (trees_of L) (done ++ pend ++ staves_of L) (pend ++ staves_of L) = (o, t, nums)
    /\ clean o ++ plain t = plain pend ++ render L
    /\ (forall x, In x (nums ++ t) <-> In x (pend ++ staves_of L)).
Proof.
  induction L as [|n r IH|s bar i IHi r IHr]; intros done pend SS W.
  - cbn [staves_of trees_of subgroups render]. rewrite !app_nil_r. exists [], pend, []. split; [reflexivity|].
    split; [reflexivity|]. intro x. reflexivity.
  - cbn [staves_of trees_of render]. replace (pend ++ n :: staves_of r) with ((pend ++ [n]) ++ staves_of r)
      by (rewrite <- app_assoc; reflexivity).
    destruct (IH done (pend ++ [n])) as (o & t & nums & E & C & M).
    + rewrite <- app_assoc. exact SS.
    + exact W.
    + exists o, t, nums. split; [exact E|]. split; [|exact M]. rewrite C. unfold plain. rewrite flat_map_app. cbn [flat_map].
      rewrite app_nil_r, app_assoc. reflexivity.
  - destruct W as (NE & VIS & NM & Wi & Wr). cbn [staves_of] in *. cbn [trees_of subgroups].
    destruct (ss_app _ _ _ SS) as (S1 & S2 & C1). destruct (ss_app _ _ _ S2) as (S3 & S4 & C2).
    destruct (ss_app _ _ _ S4) as (S5 & S6 & C3).
    destruct (IHi [] []) as (o2 & t2 & n2 & E2 & K2 & M2); [exact S5|exact Wi|]. cbn [app] in E2, K2, M2.
    destruct (staves_of i) as [|low st] eqn:Ei; [congruence|].
    cbn [hd].
    destruct (before_spec low (pend ++ (low :: st) ++ staves_of r) ((low :: st) ++ staves_of r)) with (a := done ++ pend) (i := 0)
      as (o1 & E1 & K1).
    { intros x [<-|I]; [lia|]. apply StronglySorted_inv in S4. destruct S4 as [_ F].
      pose proof (proj1 (Forall_forall _ _) F x I). lia. }
    { intros x I. apply in_app_or in I. destruct I as [I|I]; [apply C1|apply C2]; try exact I;
        [apply in_or_app; right|]; left; reflexivity. }
    rewrite <- app_assoc in E1.
    assert (FP : filter (fun n => memN n (pend ++ (low :: st) ++ staves_of r)) (done ++ pend) = pend).
    { rewrite filter_app. rewrite filter_nil, filter_id; [reflexivity| |].
      - intros x I. apply memN_iff. apply in_or_app. left. exact I.
      - intros x I. apply memN_not. intro J. pose proof (C1 x x I J). lia. }
    rewrite FP in E1, K1.
    change (done ++ pend ++ low :: st ++ staves_of r) with (done ++ pend ++ (low :: st) ++ staves_of r).
    rewrite E1, E2.
    assert (FT : filter (fun n => negb (memN n (n2 ++ t2)))
              (filter (fun n => negb (memN n pend)) (pend ++ (low :: st) ++ staves_of r)) = staves_of r).
    { rewrite filter_app, (filter_nil _ pend), (filter_id _ ((low :: st) ++ staves_of r)).
      - cbn [app]. change (low :: st ++ staves_of r) with ((low :: st) ++ staves_of r).
        rewrite filter_app, (filter_nil _ (low :: st)), (filter_id _ (staves_of r)); [reflexivity| |].
        + intros x I. apply negb_true_iff, memN_not. intro J. apply M2 in J. pose proof (C3 x x J I). lia.
        + intros x I. apply negb_false_iff, memN_iff. apply M2. exact I.
      - intros x I. apply negb_true_iff, memN_not. intro J. pose proof (C2 x x J I). lia.
      - intros x I. apply negb_false_iff, memN_iff. exact I. }
    rewrite FT.
    destruct (IHr (done ++ pend ++ (low :: st)) []) as (o3 & t3 & n3 & E3 & K3 & M3).
    { cbn [app]. rewrite <- !app_assoc. exact SS. } { exact Wr. }
    cbn [app] in E3, K3, M3. rewrite <- !app_assoc in E3. cbn [app] in E3. cbn [app]. rewrite E3.
    eexists _, _, _. split; [reflexivity|]. split.
    + rewrite !clean_app, clean_pre, clean_post, clean_staves, K1. cbn [render].
      rewrite <- !app_assoc. f_equal. f_equal. rewrite (app_assoc (clean o2)), K2. cbn [plain flat_map app]. rewrite K3.
      reflexivity.
    + intro x. specialize (M2 x). specialize (M3 x). rewrite !in_app_iff in *. cbn [In] in *. rewrite !in_app_iff in *. tauto.
Qed.

Lemma write_spec : forall L, own_of L = [] -> StronglySorted N.lt (staves_of L) -> plain_groups L ->
  clean (write_deco (trees_of L)) = render L.
Proof.
  induction L as [|n r IH|s bar i IHi r IHr]; intros O SS W; [reflexivity|discriminate O|].
  destruct W as (NE & VIS & NM & Wi & Wr). cbn [staves_of] in SS. destruct (ss_app _ _ _ SS) as (S1 & S2 & _).
  cbn [trees_of write_deco render]. destruct (subgroups_spec i [] []) as (o & t & nums & E & K & _); [exact S1|exact Wi|].
  cbn [app] in E. rewrite E. destruct (staves_of i); [congruence|].
  rewrite !clean_app, clean_pre, clean_post, clean_staves, (IHr O S2 Wr), <- !app_assoc. f_equal.
  rewrite (app_assoc (clean o)), K. reflexivity.
Qed.
