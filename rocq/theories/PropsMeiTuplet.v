(** C135: what is inside the elements <tuplet> of MEI files. *)
From Coq Require Import ZArith QArith Lia.
From Verif Require Import PyStr PyStrProofs DateModel MeiIdsModel PropsMeiIds MeiTupletModel.
Local Close Scope Q_scope.

(** * Words of the statements. *)
(** The number an attribute gives; [d] without it. *)
Definition number (d : Z) (o : option str) (z : Z) : Prop :=
  match o with None => z = d | Some s => py_int s = Some z end.
Definition well_numbered (a : tattrs) : Prop :=
  exists n b, number 3 (a_num a) n /\ number 2 (a_base a) b /\ (0 < n)%Z /\ (0 < b)%Z.
(** How a tuplet with these attributes looks. *)
Definition shown_true (o : option str) : Prop := o = None \/ o = Some (S_ "true").
Definition looks (a : tattrs) (t : tup) : Prop :=
  (a_bv a = None -> t_bracket t = BNone) /\
  (a_bv a = Some (S_ "true") -> t_bracket t = BTrue) /\
  (a_bv a = Some (S_ "false") -> t_bracket t = BFalse) /\
  (a_nv a = Some (S_ "false") -> t_actual t = None /\ t_normal t = None) /\
  (shown_true (a_nv a) -> a_nf a = None \/ a_nf a = Some (S_ "count") -> t_actual t = Some (S_ "number") /\ t_normal t = None) /\
  (shown_true (a_nv a) -> a_nf a = Some (S_ "ratio") -> t_actual t = Some (S_ "number") /\ t_normal t = Some (S_ "number")) /\
  (forall p, shown_true (a_bv a) -> a_bp a = Some p -> t_place t = Some p) /\
  (~ shown_true (a_bv a) \/ a_bp a = None -> shown_true (a_nv a) -> t_place t = a_np a) /\
  (~ shown_true (a_bv a) \/ a_bp a = None -> ~ shown_true (a_nv a) -> t_place t = None).
(** What is in an element, with the tuplets around it, the innermost first; of each
    tuplet its attributes and how many notes in it (no grace notes) come before and
    after. *)
Definition is_note (x : note) : bool := match n_kind x with Dur => true | _ => false end.
Definition place : Type := tattrs * nat * nat.
Definition notes_in (ps : list (note * list place)) : nat := length (filter (fun q => is_note (fst q)) ps).
Fixpoint mark (a : tattrs) (b : nat) (ps : list (note * list place)) : list (note * list place) :=
  match ps with
  | [] => []
  | (x, p) :: ps' => (x, p ++ [(a, b, notes_in ps')]) :: mark a (b + if is_note x then 1 else 0) ps'
  end.
Fixpoint inside_of (e : el) : list (note * list place) :=
  match e with
  | Leaf x => [(x, [])]
  | Beam es => flat_map inside_of es
  | Tup a es => mark a 0 (flat_map inside_of es)
  end.
(** Each tuplet around it has a note in it. *)
Definition kept (q : note * list place) : bool :=
  forallb (fun e : place => is_note (fst q) || Nat.ltb 0 (snd (fst e)) || Nat.ltb 0 (snd e)) (snd q).
(** The part a note plays in a tuplet. *)
Definition part (b f : nat) : option ttype :=
  match b, f with O, O => Some StartStop | O, _ => Some Start | _, O => Some Stop | _, _ => None end.
Definition tuplet_is (e : place) (t : tup) : Prop :=
  let '(a, b, f) := e in
  number 3 (a_num a) (t_num t) /\ number 2 (a_base a) (t_base t) /\ looks a t /\ t_type t = part b f.
(** How long a note sounds. *)
Definition product (l : list Q) : Q := fold_right Qmult 1%Q l.
Definition sounding (o : obj) : Q :=
  match o_ges o with Some g => g | None => (o_vis o * product (map mult (o_tups o)))%Q end.
Definition own_length (x : note) : Q := match n_ges x with Some g => g | None => n_vis x end.
(** By how much a tuplet changes the length of its notes. *)
Definition factor (e : place) (q : Q) : Prop :=
  exists n b, number 3 (a_num (fst (fst e))) n /\ number 2 (a_base (fst (fst e))) b /\ (q == inject_Z b / inject_Z n)%Q.
Definition outermost (p : list place) : list place := match rev p with [] => [] | e :: _ => [e] end.
Definition read_as (q : note * list place) (o : obj) : Prop :=
  let '(x, p) := q in
  o_note o = x /\ o_vis o = n_vis x /\
  (n_kind x <> Dur -> o_tups o = [] /\ o_ges o = n_ges x) /\
  (n_kind x = Dur ->
     Forall2 tuplet_is (match n_ges x with None => p | Some _ => outermost p end) (o_tups o) /\
     exists qs, Forall2 factor p qs /\ (sounding o == own_length x * product qs)%Q).
(** A <tupletSpan> names the note with an id. *)
Definition names_note (s : sp) (i : str) : Prop :=
  match sp_plist s with
  | Some p => exists w, In w (split_char " " p) /\ names w i
  | None => exists b e, sp_start s = Some b /\ sp_end s = Some e /\ (names b i \/ names e i)
  end.
(** Its attribute [tuplet], if any, does not begin or end a tuplet. *)
Definition no_tuplet_attr (x : note) : Prop :=
  hd_error (n_tup x) <> Some "i"%char /\ hd_error (n_tup x) <> Some "t"%char.

Lemma Forall2_len {A B} (R : A -> B -> Prop) u v : Forall2 R u v -> length u = length v.
Proof. induction 1; cbn; congruence. Qed.
Lemma Forall2_cons_inv {A B} (R : A -> B -> Prop) x y u v : Forall2 R (x :: u) (y :: v) -> R x y /\ Forall2 R u v.
Proof. intros H. inversion H; subst. split; assumption. Qed.
(** * Looks. *)
Lemma is_v_true v o : is_v v o = true <-> o = Some v.
Proof.
  unfold is_v. destruct o as [s|]; [|split; discriminate]. split; intros H.
  - apply str_eqb_eq in H. subst. reflexivity.
  - injection H as ->. apply str_eqb_refl.
Qed.
Lemma shown_true_b o : absent o || is_v (S_ "true") o = true <-> shown_true o.
Proof.
  unfold shown_true. rewrite Bool.orb_true_iff, is_v_true. destruct o; cbn; split; intros [H | H]; try discriminate; auto.
Qed.
Lemma looks_read a n b ty : looks a (mkTup n b ty (place_of a) (bracket_of a) (fst (shows_of a)) (snd (shows_of a))).
Proof.
  unfold looks. cbn [t_bracket t_actual t_normal t_place].
  assert (TF : is_v (S_ "true") (Some (S_ "false")) = false) by reflexivity.
  repeat apply conj.
  - intros H. unfold bracket_of. rewrite H. reflexivity.
  - intros H. unfold bracket_of. rewrite H. reflexivity.
  - intros H. unfold bracket_of. rewrite H. reflexivity.
  - intros H. unfold shows_of. rewrite H. split; reflexivity.
  - intros [H | H] [K | K]; unfold shows_of; rewrite H, K; split; reflexivity.
  - intros [H | H] K; unfold shows_of; rewrite H, K; split; reflexivity.
  - intros p H K. apply shown_true_b in H. unfold place_of. rewrite H, K. reflexivity.
  - intros H K. apply shown_true_b in K. unfold place_of. rewrite K.
    destruct (absent (a_bv a) || is_v (S_ "true") (a_bv a)) eqn:E; [|reflexivity].
    apply shown_true_b in E. destruct H as [H | ->]; [contradiction|reflexivity].
  - intros H K. unfold place_of.
    destruct (absent (a_nv a) || is_v (S_ "true") (a_nv a)) eqn:E1; [apply shown_true_b in E1; contradiction|].
    destruct (absent (a_bv a) || is_v (S_ "true") (a_bv a)) eqn:E; [|reflexivity].
    apply shown_true_b in E. destruct H as [H | ->]; [contradiction|reflexivity].
Qed.

(** * One tuplet. *)
(** Like [mark], with [c] notes more after the list. *)
Fixpoint markc (a : tattrs) (b c : nat) (ps : list (note * list place)) : list (note * list place) :=
  match ps with
  | [] => []
  | (x, p) :: ps' => (x, p ++ [(a, b, notes_in ps' + c)]) :: markc a (b + if is_note x then 1 else 0) c ps'
  end.
Lemma mark_markc a : forall ps b, mark a b ps = markc a b 0 ps.
Proof. induction ps as [|[x p] ps IH]; intros b; [reflexivity|]. cbn [mark markc]. rewrite IH, Nat.add_0_r. reflexivity. Qed.
Lemma notes_cons x p ps : notes_in ((x, p) :: ps) = (if is_note x then 1 else 0) + notes_in ps.
Proof. unfold notes_in. cbn. destruct (is_note x); reflexivity. Qed.
Lemma notes_app u v : notes_in (u ++ v) = notes_in u + notes_in v.
Proof. unfold notes_in. rewrite filter_app, app_length. reflexivity. Qed.
Lemma markc_app a : forall u v b c, markc a b c (u ++ v) = markc a b (notes_in v + c) u ++ markc a (b + notes_in u) c v.
Proof.
  induction u as [|[x p] u IH]; intros v b c.
  - cbn. rewrite Nat.add_0_r. reflexivity.
  - cbn [app markc]. rewrite IH, notes_app, notes_cons, <- !Nat.add_assoc. reflexivity.
Qed.

(** What is known of a note when the last of its tuplets was added: the type of that
    one is [T]. *)
Definition tuplet_has (T : nat -> nat -> option ttype -> Prop) (e : place) (t : tup) : Prop :=
  let '(a, b, f) := e in
  number 3 (a_num a) (t_num t) /\ number 2 (a_base a) (t_base t) /\ looks a t /\ T b f (t_type t).
Definition half (T : nat -> nat -> option ttype -> Prop) (q : note * list place) (o : obj) : Prop :=
  let '(x, p) := q in
  o_note o = x /\ o_vis o = n_vis x /\ o_stash o = None /\
  (n_kind x <> Dur -> o_tups o = [] /\ o_ges o = n_ges x) /\
  (n_kind x = Dur -> exists p0 e ts t, p = p0 ++ [e] /\ o_tups o = ts ++ [t] /\ tuplet_has T e t /\
     match n_ges x with
     | None => o_ges o = None /\ Forall2 tuplet_is p0 ts
     | Some g => ts = [] /\ exists g' qs, o_ges o = Some g' /\ Forall2 factor p qs /\ (g' == g * product qs)%Q
     end).
Definition full (q : note * list place) (o : obj) : Prop :=
  let '(x, p) := q in
  o_note o = x /\ o_vis o = n_vis x /\ o_stash o = None /\
  (n_kind x <> Dur -> o_tups o = [] /\ o_ges o = n_ges x) /\
  (n_kind x = Dur ->
     match n_ges x with
     | None => o_ges o = None /\ Forall2 tuplet_is p (o_tups o)
     | Some g => Forall2 tuplet_is (outermost p) (o_tups o) /\
                 exists g' qs, o_ges o = Some g' /\ Forall2 factor p qs /\ (g' == g * product qs)%Q
     end).
Definition is_part (b f : nat) (ty : option ttype) : Prop := ty = part b f.
Lemma tuplet_has_is e t : tuplet_has is_part e t <-> tuplet_is e t.
Proof. destruct e as [[a b] f]. reflexivity. Qed.
Lemma half_full q o : half is_part q o -> full q o.
Proof.
  destruct q as [x p]. intros (N & V & S & X & D). unfold full. do 4 (split; [assumption|]). intros K.
  destruct (D K) as (p0 & e & ts & t & -> & -> & H & R). apply tuplet_has_is in H. destruct (n_ges x) as [g|].
  - destruct R as [-> R]. split; [|exact R]. unfold outermost. rewrite rev_app_distr. cbn. constructor; [exact H|constructor].
  - destruct R as [G R]. split; [exact G|]. apply Forall2_app; [exact R|constructor; [exact H|constructor]].
Qed.
Lemma half_weaken (T U : nat -> nat -> option ttype -> Prop) x p a b f o :
  (forall ty, T b f ty -> U b f ty) -> half T (x, p ++ [(a, b, f)]) o -> half U (x, p ++ [(a, b, f)]) o.
Proof.
  intros W (N & V & S & X & D). unfold half. do 4 (split; [assumption|]). intros K.
  destruct (D K) as (p0 & e & ts & t & E & B & H & R). apply app_inj_tail in E. destruct E as [E1 E2]. subst p0 e.
  exists p, (a, b, f), ts, t. split; [reflexivity|]. split; [exact B|]. split; [|exact R].
  destruct H as (H1 & H2 & H3 & H4). exact (conj H1 (conj H2 (conj H3 (W _ H4)))).
Qed.
Lemma half_not_note T U x p o : is_note x = false -> half T (x, p) o -> half U (x, p) o.
Proof.
  intros K (N & V & S & X & D). unfold half. do 4 (split; [assumption|]). intros E. unfold is_note in K. rewrite E in K. discriminate.
Qed.
Lemma set_last_half T ty x p a b f o : is_note x = true -> half T (x, p ++ [(a, b, f)]) o ->
  exists o', set_last ty o = Some o' /\ half (fun _ _ u => u = Some ty) (x, p ++ [(a, b, f)]) o'.
Proof.
  intros K (N & V & S & X & D). assert (KD : n_kind x = Dur) by (unfold is_note in K; destruct (n_kind x); congruence).
  destruct (D KD) as (p0 & e & ts & t & E & B & H & R). apply app_inj_tail in E. destruct E as [E1 E2]. subst p0 e.
  unfold set_last. rewrite B, rev_app_distr. cbn [rev app]. eexists. split; [reflexivity|].
  unfold half. cbn [o_note o_vis o_stash o_tups o_ges]. do 3 (split; [assumption|]). split; [intros C; contradiction|]. intros _.
  exists p, (a, b, f), ts, (mkTup (t_num t) (t_base t) (Some ty) (t_place t) (t_bracket t) (t_actual t) (t_normal t)).
  split; [reflexivity|]. split; [rewrite rev_involutive; reflexivity|]. split; [|exact R].
  destruct H as (H1 & H2 & H3 & _). exact (conj H1 (conj H2 (conj H3 eq_refl))).
Qed.

(** The members get the tuplet; those between the first and the last note get no type. *)
Definition between (b f : nat) (ty : option ttype) : Prop := 0 < b -> 0 < f -> ty = None.
Lemma product_app u v : (product (u ++ v) == product u * product v)%Q.
Proof. unfold product. induction u as [|x u IH]; cbn; [ring|]. rewrite IH. ring. Qed.
Lemma append_half a ty x p o b f n d : n_kind x = Dur -> full (x, p) o ->
  a_num a <> Some [] -> a_base a <> Some [] ->
  number 3 (a_num a) n -> number 2 (a_base a) d ->
  let a' := mkTA (match a_num a with None => Some (S_ "3") | y => y end)
                 (match a_base a with None => Some (S_ "2") | y => y end)
                 (a_bv a) (a_bp a) (a_nv a) (a_np a) (a_nf a) in
  exists o', append_tup a' ty o = Some o' /\ half (fun _ _ u => u = ty) (x, p ++ [(a, b, f)]) o'.
Proof.
  intros KD (N & V & S & X & D) Z1 Z2 H1 H2 a'. specialize (D KD).
  assert (L : forall u v ty, looks a (mkTup u v ty (place_of a') (bracket_of a') (fst (shows_of a')) (snd (shows_of a')))).
  { intros u v ty'. exact (looks_read a u v ty'). }
  assert (E1 : exists c s, a_num a' = Some (c :: s) /\ py_int (c :: s) = Some n).
  { cbn [a_num a']. destruct (a_num a) as [[|c s]|]; [contradiction|exists c, s; split; [reflexivity|exact H1]|].
    cbn in H1. subst n. eexists _, _. split; reflexivity. }
  assert (E2 : exists c s, a_base a' = Some (c :: s) /\ py_int (c :: s) = Some d).
  { cbn [a_base a']. destruct (a_base a) as [[|c s]|]; [contradiction|exists c, s; split; [reflexivity|exact H2]|].
    cbn in H2. subst d. eexists _, _. split; reflexivity. }
  destruct E1 as (c1 & s1 & E1 & P1), E2 as (c2 & s2 & E2 & P2). unfold append_tup. rewrite E1, E2, P1, P2.
  destruct (n_ges x) as [g|] eqn:G.
  - destruct D as [D1 (g' & qs & D2 & D3 & D4)]. rewrite D2. eexists. split; [reflexivity|].
    unfold half. cbn [o_note o_vis o_stash o_tups o_ges]. do 3 (split; [assumption|]). split; [intros C; contradiction|]. intros _.
    eexists p, (a, b, f), [], _. split; [reflexivity|]. split; [reflexivity|].
    split; [exact (conj H1 (conj H2 (conj (L _ _ _) eq_refl)))|]. rewrite G. split; [reflexivity|].
    eexists _, (qs ++ [(inject_Z d / inject_Z n)%Q]). split; [reflexivity|]. split.
    + apply Forall2_app; [exact D3|]. constructor; [|constructor]. exists n, d. cbn [fst]. repeat apply conj; try assumption. reflexivity.
    + unfold mult. cbn [t_num t_base]. rewrite product_app, D4. cbn [product fold_right]. ring.
  - destruct D as [D1 D2]. rewrite D1. eexists. split; [reflexivity|].
    unfold half. cbn [o_note o_vis o_stash o_tups o_ges]. do 3 (split; [assumption|]). split; [intros C; contradiction|]. intros _.
    eexists p, (a, b, f), (o_tups o), _. split; [reflexivity|]. split; [reflexivity|].
    split; [exact (conj H1 (conj H2 (conj (L _ _ _) eq_refl)))|]. rewrite G. split; [reflexivity|exact D2].
Qed.
Lemma number_not_empty d o z : number d o z -> o <> Some [].
Proof. intros H ->. discriminate. Qed.
Lemma full_not_note T q p' o : is_note (fst q) = false -> full q o -> half T (fst q, p') o.
Proof.
  destruct q as [x p]. cbn [fst]. intros K (N & V & S & X & D). unfold half. do 4 (split; [assumption|]).
  intros E. unfold is_note in K. rewrite E in K. discriminate.
Qed.
Lemma scale_half a : well_numbered a -> forall ps os i k b, Forall2 full ps os -> (0 < b -> 0 < i) -> i + length os = k ->
  exists os1, scale_list (mkTA (match a_num a with None => Some (S_ "3") | y => y end)
                               (match a_base a with None => Some (S_ "2") | y => y end)
                               (a_bv a) (a_bp a) (a_nv a) (a_np a) (a_nf a)) i k os = Some os1 /\
    Forall2 (half between) (markc a b 0 ps) os1.
Proof.
  intros (n & d & H1 & H2 & _ & _). induction ps as [|[x p] ps IH]; intros os i k b F Bi L.
  - inversion F; subst. eexists. split; [reflexivity|constructor].
  - destruct os as [|o os]; [inversion F|]. assert (F1 : full (x, p) o) by (inversion F; assumption). assert (F2 : Forall2 full ps os) by (inversion F; assumption).
    assert (LE : length ps = length os) by (eapply Forall2_len; exact F2).
    destruct (IH os (S i) k (b + if is_note x then 1 else 0) F2 ltac:(lia) ltac:(cbn in L; lia)) as (r & Er & Fr).
    cbn [scale_list markc]. rewrite Er. assert (No : o_note o = x) by apply F1. rewrite No.
    destruct (is_note x) eqn:K.
    + assert (KD : n_kind x = Dur) by (unfold is_note in K; destruct (n_kind x); congruence). rewrite KD.
      destruct (append_half a (if Nat.eqb i 0 then Some Start else if Nat.eqb i (k - 1) then Some Stop else None) x p o b (notes_in ps + 0) n d
        KD F1 (number_not_empty _ _ _ H1) (number_not_empty _ _ _ H2) H1 H2) as (o' & Eo & Ho). cbn zeta in Eo. rewrite Eo.
      eexists. split; [reflexivity|]. constructor; [|exact Fr].
      refine (half_weaken _ _ _ _ _ _ _ _ _ Ho). intros ty -> Pb Pf.
      assert (NL : notes_in ps <= length ps) by (unfold notes_in; clear; induction ps as [|y ps IH]; cbn; [lia|]; destruct (is_note (fst y)); cbn; lia).
      destruct (Nat.eqb_spec i 0); [lia|]. destruct (Nat.eqb_spec i (k - 1)); [cbn in L; lia|]. reflexivity.
    + assert (KD : n_kind x <> Dur) by (intros C; unfold is_note in K; rewrite C in K; discriminate).
      replace (match n_kind x with Dur => _ | _ => Some o end) with (Some o) by (destruct (n_kind x); [contradiction|reflexivity|reflexivity]).
      eexists. split; [reflexivity|]. constructor; [|exact Fr]. exact (full_not_note _ (x, p) _ _ K F1).
Qed.

(** ** The types of the first and the last note. *)
Lemma is_dur_half T x p o : half T (x, p) o -> is_dur o = is_note x.
Proof. intros (N & _). unfold is_dur. rewrite N. reflexivity. Qed.
Lemma half_no_notes T a : forall ps b c os, notes_in ps = 0 -> Forall2 (half T) (markc a b c ps) os -> Forall2 full (markc a b c ps) os.
Proof.
  induction ps as [|[x p] ps IH]; intros b c os Z F; cbn [markc] in *.
  - inversion F; constructor.
  - destruct os as [|o os]; [inversion F|]. assert (F1 : half T (x, p ++ [(a, b, notes_in ps + c)]) o) by (inversion F; assumption). assert (F2 : Forall2 (half T) (markc a (b + if is_note x then 1 else 0) c ps) os) by (inversion F; assumption).
    rewrite notes_cons in Z. destruct (is_note x) eqn:K; [discriminate|]. constructor; [|apply IH; [lia|exact F2]].
    apply half_full. exact (half_not_note _ _ _ _ _ K F1).
Qed.
Lemma half_between a : forall ps b c os, 0 < b -> 0 < c -> Forall2 (half between) (markc a b c ps) os -> Forall2 full (markc a b c ps) os.
Proof.
  induction ps as [|[x p] ps IH]; intros b c os B C F; cbn [markc] in *.
  - inversion F; constructor.
  - destruct os as [|o os]; [inversion F|]. assert (F1 : half between (x, p ++ [(a, b, notes_in ps + c)]) o) by (inversion F; assumption). assert (F2 : Forall2 (half between) (markc a (b + if is_note x then 1 else 0) c ps) os) by (inversion F; assumption).
    constructor; [|apply IH; [lia|exact C|exact F2]].
    apply half_full. refine (half_weaken _ _ _ _ _ _ _ _ _ F1). intros ty H. unfold is_part. rewrite (H B ltac:(lia)).
    unfold part. destruct b; [lia|]. destruct (notes_in ps + c) eqn:E; [lia|reflexivity].
Qed.
Lemma first_dur_app u v i : forallb (fun o => negb (is_dur o)) u = true -> first_dur i (u ++ v) = first_dur (i + length u) v.
Proof.
  revert i. induction u as [|o u IH]; intros i H; cbn in *; [rewrite Nat.add_0_r; reflexivity|].
  apply andb_prop in H. destruct H as [H1 H2]. destruct (is_dur o); [discriminate|]. rewrite (IH (S i) H2). f_equal. lia.
Qed.
Lemma last_dur_app u v i r : last_dur i (u ++ v) r = last_dur (i + length u) v (last_dur i u r).
Proof.
  revert i r. induction u as [|o u IH]; intros i r; cbn; [rewrite Nat.add_0_r; reflexivity|]. rewrite IH. f_equal. lia.
Qed.
Lemma last_dur_none u i r : forallb (fun o => negb (is_dur o)) u = true -> last_dur i u r = r.
Proof.
  revert i r. induction u as [|o u IH]; intros i r H; cbn in *; [reflexivity|].
  apply andb_prop in H. destruct H as [H1 H2]. destruct (is_dur o); [discriminate|]. apply IH. exact H2.
Qed.
Lemma at_nth_app f u o v : at_nth f (length u) (u ++ o :: v) = match f o with Some o' => Some (u ++ o' :: v) | None => None end.
Proof.
  induction u as [|y u IH]; cbn; [reflexivity|]. rewrite IH. destruct (f o); reflexivity.
Qed.
(** The first note of a list, and its last one. *)
Lemma split_first ps : 0 < notes_in ps -> exists u x p v, ps = u ++ (x, p) :: v /\ notes_in u = 0 /\ is_note x = true.
Proof.
  induction ps as [|[x p] ps IH]; [cbn; lia|]. intros H. rewrite notes_cons in H. destruct (is_note x) eqn:K.
  - exists [], x, p, ps. repeat split. exact K.
  - destruct (IH ltac:(lia)) as (u & y & r & v & -> & Z & Y). exists ((x, p) :: u), y, r, v. split; [reflexivity|].
    split; [rewrite notes_cons, K; exact Z|exact Y].
Qed.
Lemma split_last ps : 0 < notes_in ps -> exists u x p v, ps = u ++ (x, p) :: v /\ notes_in v = 0 /\ is_note x = true.
Proof.
  induction ps as [|[x p] ps IH]; [cbn; lia|]. intros H. rewrite notes_cons in H. destruct (Nat.eq_dec (notes_in ps) 0) as [Z|Z].
  - exists [], x, p, ps. split; [reflexivity|]. split; [exact Z|]. destruct (is_note x); [reflexivity|lia].
  - destruct (IH ltac:(lia)) as (u & y & r & v & -> & W & Y). exists ((x, p) :: u), y, r, v. split; [reflexivity|]. split; assumption.
Qed.
Lemma no_dur T a : forall ps b c os, Forall2 (half T) (markc a b c ps) os -> notes_in ps = 0 -> forallb (fun o => negb (is_dur o)) os = true.
Proof.
  induction ps as [|[x p] ps IH]; intros b c os F Z; cbn [markc] in F.
  - inversion F; reflexivity.
  - destruct os as [|o os]; [inversion F|]. assert (F1 : half T (x, p ++ [(a, b, notes_in ps + c)]) o) by (inversion F; assumption). assert (F2 : Forall2 (half T) (markc a (b + if is_note x then 1 else 0) c ps) os) by (inversion F; assumption).
    rewrite notes_cons in Z. destruct (is_note x) eqn:K; [discriminate|]. cbn. rewrite (is_dur_half _ _ _ _ F1), K. cbn. eapply IH; [exact F2|lia].
Qed.
Lemma tuplet_of_full a ps os : well_numbered a -> 0 < notes_in ps -> Forall2 full ps os ->
  exists os', tuplet_of a os = Some os' /\ Forall2 full (mark a 0 ps) os'.
Proof.
  intros W P F. destruct (scale_half a W ps os 0 (length os) 0 F ltac:(lia) eq_refl) as (os1 & E & H).
  unfold tuplet_of. rewrite E. rewrite mark_markc. clear E F.
  destruct (split_first ps P) as (u & x & p & v & -> & Zu & Kx).
  rewrite markc_app in *. rewrite Zu in *. cbn [Nat.add markc] in *. rewrite Kx in *.
  apply Forall2_app_inv_l in H. destruct H as (ou & r & Hu & Hr & ->).
  destruct r as [|o r]; [inversion Hr|]. assert (Ho := Hr). apply Forall2_cons_inv in Ho. destruct Ho as [Ho Hv]. clear Hr.
  pose proof (no_dur _ _ _ _ _ _ Hu Zu) as Nu. rewrite (first_dur_app _ _ _ Nu). cbn [first_dur Nat.add].
  rewrite (is_dur_half _ _ _ _ Ho), Kx.
  assert (SK : skipn (S (length ou)) (ou ++ o :: r) = r).
  { clear. induction ou as [|y ou IH]; [reflexivity|exact IH]. }
  rewrite SK. destruct (Nat.eq_dec (notes_in v) 0) as [Zv|Zv].
  - pose proof (no_dur _ _ _ _ _ _ Hv Zv) as Nv. rewrite (last_dur_none _ _ _ Nv). rewrite at_nth_app.
    destruct (set_last_half between StartStop x p a 0 (notes_in v + 0) o Kx Ho) as (o' & -> & Ho'). eexists. split; [reflexivity|].
    apply Forall2_app; [exact (half_no_notes _ _ _ _ _ _ Zu Hu)|]. constructor; [|exact (half_no_notes _ _ _ _ _ _ Zv Hv)].
    apply half_full. refine (half_weaken _ _ _ _ _ _ _ _ _ Ho'). intros ty ->. rewrite Zv. reflexivity.
  - destruct (split_last v ltac:(lia)) as (w & y & q & z & -> & Zz & Ky). rewrite markc_app in Hv. cbn [markc] in Hv.
    apply Forall2_app_inv_l in Hv. destruct Hv as (ow & r2 & Hw & Hr2 & ->).
    destruct r2 as [|o2 oz]; [inversion Hr2|]. apply Forall2_cons_inv in Hr2. destruct Hr2 as [Ho2 Hz].
    rewrite last_dur_app. cbn [last_dur]. rewrite (is_dur_half _ _ _ _ Ho2), Ky.
    pose proof (no_dur _ _ _ _ _ _ Hz Zz) as Nz. rewrite (last_dur_none _ _ _ Nz). rewrite at_nth_app.
    destruct (set_last_half between Start x p a 0 _ o Kx Ho) as (o' & -> & Ho').
    replace (ou ++ o' :: ow ++ o2 :: oz) with ((ou ++ o' :: ow) ++ o2 :: oz) by (rewrite <- app_assoc; reflexivity).
    replace (S (length ou) + length ow) with (length (ou ++ o' :: ow)) by (rewrite app_length; cbn; lia).
    rewrite at_nth_app. destruct (set_last_half between Stop y q a _ _ o2 Ky Ho2) as (o2' & -> & Ho2').
    eexists. split; [reflexivity|]. rewrite <- app_assoc. cbn [app].
    rewrite !notes_app, !notes_cons, !Ky, !Zz in *. cbn [Nat.add] in *.
    apply Forall2_app; [exact (half_no_notes _ _ _ _ _ _ Zu Hu)|]. constructor.
    + apply half_full. refine (half_weaken _ _ _ _ _ _ _ _ _ Ho'). intros ty ->. unfold is_part, part. destruct (notes_in w + 1 + 0) eqn:E; [lia|reflexivity].
    + rewrite markc_app. apply Forall2_app.
      * rewrite notes_cons, Ky, Zz. cbn [Nat.add]. apply half_between; [lia|lia|exact Hw].
      * cbn [markc]. rewrite Ky, Zz in *. constructor; [|exact (half_no_notes _ _ _ _ _ _ Zz Hz)].
        apply half_full. refine (half_weaken _ _ _ _ _ _ _ _ _ Ho2'). intros ty ->. unfold is_part, part. cbn. reflexivity.
Qed.

(** * Trees of elements. *)
Section ElInd.
  Variable P : el -> Prop.
  Hypothesis HL : forall x, P (Leaf x).
  Hypothesis HB : forall es, Forall P es -> P (Beam es).
  Hypothesis HT : forall a es, Forall P es -> P (Tup a es).
  Fixpoint el_rect' (e : el) : P e :=
    let all := fix all (es : list el) : Forall P es :=
      match es with [] => Forall_nil P | e :: es' => Forall_cons e (el_rect' e) (all es') end in
    match e with Leaf x => HL x | Beam es => HB es (all es) | Tup a es => HT a es (all es) end.
End ElInd.
Lemma read_beam m es n : read_el m (Beam es) n = reads m es n.
Proof.
  cbn [read_el]. revert n. induction es as [|e es IH]; intros n; [reflexivity|]. cbn [reads].
  destruct (read_el m e n) as [[n1 os]|]; [|reflexivity]. rewrite <- IH. reflexivity.
Qed.
Lemma read_tup m a es n : read_el m (Tup a es) n =
  match reads m es (n + 1)%Z with
  | Some (n1, os) => match tuplet_of a os with Some os' => Some ((n1 - 1)%Z, os') | None => None end
  | None => None
  end.
Proof. rewrite <- read_beam. reflexivity. Qed.
(** Notes that no span names and that have no attribute [tuplet]. *)
Definition plain_in (m : attrs) (q : note * list place) : Prop :=
  n_kind (fst q) <> Other -> search_at m (n_id (fst q)) = None /\ a_num (attrs_at m (n_id (fst q))) = None /\ no_tuplet_attr (fst q).
Definition numbered (q : note * list place) : Prop :=
  n_kind (fst q) = Dur -> forall e, In e (snd q) -> well_numbered (fst (fst e)).
Lemma starts_with_hd c s : hd_error s <> Some c -> starts_with_c c s = false.
Proof. destruct s as [|x s]; [reflexivity|]. cbn. intros H. apply Ascii.eqb_neq. congruence. Qed.
Lemma read_leaf_plain m n x : plain_in m (x, []) -> exists o, read_leaf m n x = Some (n, o) /\ full (x, []) o.
Proof.
  intros H. unfold plain_in in H. cbn [fst] in H. exists (mkObj x (n_vis x) (n_ges x) [] None). split.
  - unfold read_leaf. destruct (n_kind x) eqn:K; [| |reflexivity];
      destruct (H ltac:(discriminate)) as (H1 & H2 & H3 & H4); rewrite H1, H2;
      rewrite (starts_with_hd _ _ H3), (starts_with_hd _ _ H4); cbn [is_v]; destruct (n =? 0)%Z; reflexivity.
  - unfold full. cbn. repeat (split; [reflexivity|]). split; [split; reflexivity|]. intros _. destruct (n_ges x) as [g|].
    + split; [constructor|]. exists g, []. repeat split; [constructor|]. cbn. ring.
    + split; [reflexivity|constructor].
Qed.
Lemma mark_fst a : forall ps b, map fst (mark a b ps) = map fst ps.
Proof. induction ps as [|[x p] ps IH]; intros b; [reflexivity|]. cbn. rewrite IH. reflexivity. Qed.
Lemma kept_note x p : is_note x = true -> kept (x, p) = true.
Proof. intros K. unfold kept. cbn [fst snd]. apply forallb_forall. intros e _. rewrite K. reflexivity. Qed.
Lemma notes_kept ps : notes_in (filter kept ps) = notes_in ps.
Proof.
  induction ps as [|[x p] ps IH]; [reflexivity|]. cbn [filter]. rewrite notes_cons. destruct (is_note x) eqn:K.
  - rewrite (kept_note _ _ K), notes_cons, K, IH. reflexivity.
  - destruct (kept (x, p)); [rewrite notes_cons, K|]; exact IH.
Qed.
Lemma kept_app x p a b f : kept (x, p ++ [(a, b, f)]) = kept (x, p) && (is_note x || Nat.ltb 0 b || Nat.ltb 0 f).
Proof. unfold kept. cbn [fst snd]. rewrite forallb_app. cbn. rewrite Bool.andb_true_r. reflexivity. Qed.
Lemma mark_kept a : forall ps b, 0 < b + notes_in ps -> filter kept (mark a b ps) = mark a b (filter kept ps).
Proof.
  induction ps as [|[x p] ps IH]; intros b P; [reflexivity|]. rewrite notes_cons in P. cbn [mark filter]. rewrite kept_app.
  assert (E : is_note x || (0 <? b) || (0 <? notes_in ps) = true).
  { destruct (is_note x); [reflexivity|]. destruct b; [|reflexivity]. cbn in P. destruct (notes_in ps); [lia|reflexivity]. }
  rewrite E, Bool.andb_true_r, (IH (b + if is_note x then 1 else 0)) by lia. destruct (kept (x, p)) eqn:K; match goal with |- context [if ?c then _ else _] => change c with (kept (x, p)); rewrite K end.
  - cbn [mark]. rewrite notes_kept. reflexivity.
  - destruct (is_note x) eqn:Kx; [rewrite (kept_note _ _ Kx) in K; discriminate|]. rewrite Nat.add_0_r. reflexivity.
Qed.
Lemma mark_none a : forall ps, notes_in ps = 0 -> filter kept (mark a 0 ps) = [].
Proof.
  induction ps as [|[x p] ps IH]; intros Z; [reflexivity|]. rewrite notes_cons in Z. cbn [mark filter]. rewrite kept_app.
  destruct (is_note x) eqn:K; [discriminate|]. cbn in Z. rewrite Z. cbn. rewrite Bool.andb_false_r. apply IH. exact Z.
Qed.
Lemma scale_no_notes a : forall os i k, forallb (fun o => negb (is_dur o)) os = true -> scale_list a i k os = Some os.
Proof.
  induction os as [|o os IH]; intros i k H; [reflexivity|]. cbn in H. apply andb_prop in H. destruct H as [H1 H2]. cbn [scale_list].
  rewrite (IH _ _ H2). unfold is_dur in H1. destruct (n_kind (o_note o)); [discriminate|reflexivity|reflexivity].
Qed.
Lemma first_no_notes : forall os i, forallb (fun o => negb (is_dur o)) os = true -> first_dur i os = None.
Proof. intros os i H. replace os with (os ++ []) by apply app_nil_r. rewrite (first_dur_app _ _ _ H). reflexivity. Qed.
Lemma full_no_notes : forall ps os, notes_in ps = 0 -> Forall2 full ps os -> forallb (fun o => negb (is_dur o)) os = true.
Proof.
  intros ps os Z F. induction F as [|[x p] o ps os H F IH]; [reflexivity|]. rewrite notes_cons in Z. destruct (is_note x) eqn:K; [discriminate|].
  cbn. unfold is_dur. destruct H as (-> & _). unfold is_note in K. destruct (n_kind x); [discriminate| |]; cbn; apply IH; exact Z.
Qed.
Lemma In_mark a : forall ps b q, In q (mark a b ps) -> exists p bb f, In (fst q, p) ps /\ snd q = p ++ [(a, bb, f)].
Proof.
  induction ps as [|[x p] ps IH]; intros b q I; [destruct I|]. cbn [mark] in I. destruct I as [<- | I].
  - exists p, b, (notes_in ps). split; [left; reflexivity|reflexivity].
  - destruct (IH _ _ I) as (p' & bb & f & H1 & H2). exists p', bb, f. split; [right; exact H1|exact H2].
Qed.
Lemma mark_In a : forall ps b x p, In (x, p) ps -> exists bb f, In (x, p ++ [(a, bb, f)]) (mark a b ps).
Proof.
  induction ps as [|[y r] ps IH]; intros b x p I; [destruct I|]. cbn [mark]. destruct I as [E | I].
  - injection E as -> ->. eexists _, _. left. reflexivity.
  - destruct (IH (b + if is_note y then 1 else 0) x p I) as (bb & f & H). exists bb, f. right. exact H.
Qed.
Definition reads_as m es n os := reads m es n = Some (n, os) /\ Forall2 full (filter kept (flat_map inside_of es)) os.
Lemma reads_full m es : Forall (fun e => forall n, Forall (plain_in m) (inside_of e) -> Forall numbered (inside_of e) ->
    exists os, read_el m e n = Some (n, os) /\ Forall2 full (filter kept (inside_of e)) os) es ->
  forall n, Forall (plain_in m) (flat_map inside_of es) -> Forall numbered (flat_map inside_of es) -> exists os, reads_as m es n os.
Proof.
  induction 1 as [|e es He _ IH]; intros n P W.
  - exists []. split; [reflexivity|constructor].
  - cbn [flat_map] in *. apply Forall_app in P, W. destruct P as [P1 P2], W as [W1 W2].
    destruct (He n P1 W1) as (os & E1 & F1). destruct (IH n P2 W2) as (r & E2 & F2).
    exists (os ++ r). unfold reads_as. cbn [reads flat_map]. rewrite E1, E2, filter_app. split; [reflexivity|]. apply Forall2_app; assumption.
Qed.
Lemma read_full m e : forall n, Forall (plain_in m) (inside_of e) -> Forall numbered (inside_of e) ->
    exists os, read_el m e n = Some (n, os) /\ Forall2 full (filter kept (inside_of e)) os.
Proof.
  induction e as [x|es IH|a es IH] using el_rect'; intros n P W.
  - apply Forall_inv in P. destruct (read_leaf_plain m n x P) as (o & E & F). exists [o]. cbn [read_el]. rewrite E. split; [reflexivity|].
    cbn [inside_of filter]. change (kept (x, [])) with true. cbn. constructor; [exact F|constructor].
  - rewrite read_beam. cbn [inside_of] in *. exact (reads_full m es IH n P W).
  - rewrite read_tup. cbn [inside_of] in *. set (ps := flat_map inside_of es) in *.
    assert (P' : Forall (plain_in m) ps).
    { apply Forall_forall. intros [x p] I. destruct (mark_In a ps 0 x p I) as (bb & f & J). rewrite Forall_forall in P. exact (P _ J). }
    assert (W' : Forall numbered ps).
    { apply Forall_forall. intros [x p] I. destruct (mark_In a ps 0 x p I) as (bb & f & J). rewrite Forall_forall in W. specialize (W _ J).
      intros K e Ie. apply (W K e). cbn [snd]. apply in_or_app. left. exact Ie. }
    destruct (reads_full m es IH (n + 1)%Z P' W') as (os & E & F). fold ps in F. rewrite E.
    destruct (Nat.eq_dec (notes_in ps) 0) as [Z|Z].
    + exists []. assert (ND := full_no_notes _ _ ltac:(rewrite notes_kept; exact Z) F). unfold tuplet_of. rewrite (scale_no_notes _ _ _ _ ND), (first_no_notes _ _ ND).
      rewrite (mark_none _ _ Z). split; [f_equal; f_equal; lia|constructor].
    + assert (WN : well_numbered a).
      { destruct (split_first ps ltac:(lia)) as (u & x & p & v & Eq & _ & K). destruct (mark_In a ps 0 x p) as (bb & f & J).
        - rewrite Eq. apply in_or_app. right. left. reflexivity.
        - rewrite Forall_forall in W. specialize (W _ J). unfold numbered in W. cbn [fst snd] in W.
          refine (W _ (a, bb, f) _); [unfold is_note in K; destruct (n_kind x); congruence|]. apply in_or_app. right. left. reflexivity. }
      destruct (tuplet_of_full a (filter kept ps) os WN ltac:(rewrite notes_kept; lia) F) as (os' & -> & F').
      exists os'. rewrite mark_kept by lia. split; [f_equal; f_equal; lia|exact F'].
Qed.
(** Without notes to search for, the search changes nothing. *)
Lemma guess_none : forall os cur, Forall (fun o => o_stash o = None) os -> guess false cur os = Some os.
Proof.
  induction os as [|o os IH]; intros cur F; [reflexivity|]. cbn [guess]. rewrite (Forall_inv F). cbn [orb].
  rewrite (IH cur (Forall_inv_tail F)). destruct (n_kind (o_note o)); reflexivity.
Qed.
Lemma product_mult p ts : Forall2 tuplet_is p ts -> Forall2 factor p (map mult ts).
Proof.
  induction 1 as [|[[a b] f] t p ts (H1 & H2 & _) _ IH]; [constructor|]. constructor; [|exact IH].
  exists (t_num t), (t_base t). repeat split; assumption.
Qed.
Lemma full_read_as q o : full q o -> read_as q o.
Proof.
  destruct q as [x p]. intros (N & V & S & X & D). unfold read_as. do 3 (split; [assumption|]). intros K. specialize (D K).
  unfold sounding, own_length. destruct (n_ges x) as [g|].
  - destruct D as [D (g' & qs & E & F & Q)]. split; [exact D|]. exists qs. rewrite E. split; assumption.
  - destruct D as [E D]. split; [exact D|]. exists (map mult (o_tups o)). rewrite E, V. split; [exact (product_mult _ _ D)|]. reflexivity.
Qed.

(** * Spans that name other notes. *)
Lemma setIf_other m i a v j b : j <> i -> setIf m i a v j b = m j b.
Proof. intros H. unfold setIf. destruct v; [reflexivity|]. apply setAttr_other. left. exact H. Qed.
Lemma setSpan_other m i s j b : j <> i -> setSpan m i s j b = m j b.
Proof.
  intros H. unfold setSpan. cbn zeta. rewrite !setIf_other by exact H. rewrite !setAttr_other by (left; exact H). reflexivity.
Qed.
Lemma ppSpan_other m s i b : ~ names_note s i -> ppSpan m s i b = m i b.
Proof.
  intros H. unfold ppSpan. unfold names_note in H. destruct (sp_plist s) as [p|].
  - assert (G : forall l m, (forall w, In w l -> ~ names w i) -> fold_left (fun m i0 => match removeOctothorpe i0 with [] => m | i => setSpan m i s end) l m i b = m i b).
    { clear. induction l as [|w l IH]; intros m H; [reflexivity|]. cbn [fold_left]. rewrite IH by (intros v I; apply H; right; exact I).
      assert (N : removeOctothorpe w <> i) by (intros C; apply names_octothorpe in C; exact (H w (or_introl eq_refl) C)).
      destruct (removeOctothorpe w) as [|c u]; [reflexivity|]. apply setSpan_other. congruence. }
    apply G. intros w I C. apply H. exists w. split; assumption.
  - destruct (sp_start s) as [u|]; [|reflexivity]. destruct (sp_end s) as [v|]; [|reflexivity].
    assert (N1 : i <> removeOctothorpe u) by (intros C; symmetry in C; apply names_octothorpe in C; apply H; exists u, v; auto).
    assert (N2 : i <> removeOctothorpe v) by (intros C; symmetry in C; apply names_octothorpe in C; apply H; exists u, v; auto).
    cbn zeta. rewrite setSpan_other by exact N2. rewrite setAttr_other by (left; exact N2).
    rewrite setSpan_other by exact N1. rewrite setAttr_other by (left; exact N1). reflexivity.
Qed.
Lemma ppSpans_other i b : forall ss m, (forall s, In s ss -> ~ names_note s i) -> fold_left ppSpan ss m i b = m i b.
Proof.
  induction ss as [|s ss IH]; intros m H; [reflexivity|]. cbn [fold_left]. rewrite IH by (intros t I; apply H; right; exact I).
  apply ppSpan_other. apply H. left. reflexivity.
Qed.

(** C135.  Whatever is in the <tuplet> and <beam> elements of a layer (notes, rests,
    chords, grace notes, clefs and so on; tuplets inside beams, beams inside tuplets,
    tuplets inside tuplets): all of it is read in the order of the file, except for what
    is in a tuplet without any note.  A note has the tuplets that are around it, the
    innermost first, with their numbers and looks; it begins those whose first note it
    is, ends those whose last note it is, and does both if it is the only one.  It sounds
    as long as it would without them, times what each tuplet says.  A note that has its
    own sounding length keeps only the outermost tuplet, but sounds as long as it
    should.  Grace notes have no tuplets. *)
Theorem C135_tuplet_elements : forall ss n es,
  (forall x p, In (x, p) (flat_map inside_of es) -> n_kind x <> Other ->
     no_tuplet_attr x /\ forall s, In s ss -> ~ names_note s (n_id x)) ->
  (forall x p a b f, In (x, p) (flat_map inside_of es) -> n_kind x = Dur -> In (a, b, f) p -> well_numbered a) ->
  exists os, read_layer (ppSpans ss) n es = Some os /\
    Forall2 read_as (filter kept (flat_map inside_of es)) os.
Proof.
  intros ss n es H1 H2. set (m := ppSpans ss).
  destruct (reads_full m es) with (n := n) as (os & E & F).
  - apply Forall_forall. intros e _. exact (read_full m e).
  - apply Forall_forall. intros [x p] I K. destruct (H1 x p I K) as [A B]. unfold search_at, attrs_at. cbn [fst a_num].
    unfold m, ppSpans. rewrite !ppSpans_other by exact B. repeat split; try reflexivity; apply A.
  - apply Forall_forall. intros [x p] I K [[a b] f] J. exact (H2 x p a b f I K J).
  - exists os. unfold read_layer. rewrite E. split.
    + apply guess_none. clear E H1 H2. induction F as [|[x p] o ps os H F IH]; [constructor|]. constructor; [apply H|exact IH].
    + clear E. induction F as [|q o ps os H F IH]; [constructor|]. constructor; [exact (full_read_as _ _ H)|exact IH].
Qed.
Print Assumptions C135_tuplet_elements.

(** A quintuplet of a beam of two notes, a triplet inside, a grace note and a rest. *)
Definition nt (i : string) (k : kind) (q : Q) : note := mkNote (S_ i) k q None [].
Definition ta (n b : string) : tattrs := mkTA (Some (S_ n)) (Some (S_ b)) None None None None None.
Definition sample_layer : list el :=
  [Leaf (nt "clef" Other 0); Tup (ta "5" "4") [Beam [Leaf (nt "a" Dur (1#2)); Leaf (nt "b" Dur (1#2))];
     Tup noTA [Leaf (nt "c" Dur (1#2)); Leaf (nt "g" Grace 0); Leaf (nt "d" Dur (1#2)); Leaf (nt "e" Dur (1#2))]; Leaf (nt "r" Dur 1)];
   Leaf (nt "z" Dur 1)].
Example C135_nonvacuous :
  (forall x p, In (x, p) (flat_map inside_of sample_layer) -> n_kind x <> Other -> no_tuplet_attr x) /\
  (forall x p a b f, In (x, p) (flat_map inside_of sample_layer) -> n_kind x = Dur -> In (a, b, f) p -> well_numbered a) /\
  match read_layer noAttrs 0 sample_layer with
  | Some os => map (fun o => (Qred (sounding o), map (fun t => (t_num t, t_type t)) (o_tups o))) os
  | None => []
  end =
  [((0 # 1)%Q, []); ((2 # 5)%Q, [(5%Z, Some Start)]); ((2 # 5)%Q, [(5%Z, None)]);
   ((4 # 15)%Q, [(3%Z, Some Start); (5%Z, None)]); ((0 # 1)%Q, []); ((4 # 15)%Q, [(3%Z, None); (5%Z, None)]);
   ((4 # 15)%Q, [(3%Z, Some Stop); (5%Z, None)]); ((4 # 5)%Q, [(5%Z, Some Stop)]); ((1 # 1)%Q, [])].
Proof.
  split; [|split; [|vm_compute; reflexivity]].
  - intros x p I _. vm_compute in I. repeat (destruct I as [I | I]; [injection I as <- <-; split; discriminate|]). destruct I.
  - assert (A : well_numbered (ta "5" "4")) by (exists 5%Z, 4%Z; repeat split; reflexivity).
    assert (B : well_numbered noTA) by (exists 3%Z, 2%Z; repeat split; reflexivity).
    intros x p a b f I _ J.
    cbn [flat_map sample_layer inside_of app mark nt is_note notes_in length filter fst n_kind Nat.add] in I.
    repeat (destruct I as [I | I]; [injection I as <- <-; cbn [In] in J; repeat (destruct J as [J | J]; [injection J as <- <- <-; assumption|]); destruct J|]). destruct I.
Qed.

(** Not so: all that is in a layer is read. *)
Theorem C135_all_read_refuted : exists es os, read_layer noAttrs 0 es = Some os /\
  exists x p, In (x, p) (flat_map inside_of es) /\ ~ In x (map o_note os).
Proof.
  exists [Tup noTA [Leaf (nt "clef" Other 0); Leaf (nt "g" Grace 0)]], []. split; [reflexivity|].
  eexists _, _. split; [left; reflexivity|]. intros [].
Qed.
Print Assumptions C135_all_read_refuted.
(** Not so: a note has all the tuplets that are around it. *)
Theorem C135_played_refuted : exists es os x p o, read_layer noAttrs 0 es = Some os /\
  In (x, p) (flat_map inside_of es) /\ n_kind x = Dur /\ In o os /\ o_note o = x /\ length p = 2 /\ length (o_tups o) = 1.
Proof.
  exists [Tup (ta "5" "4") [Tup noTA [Leaf (mkNote (S_ "a") Dur (1#2)%Q (Some (1#4)%Q) [])]]].
  eexists _, _, _, _. split; [vm_compute; reflexivity|]. split; [left; reflexivity|]. split; [reflexivity|]. split; [left; reflexivity|].
  repeat split; reflexivity.
Qed.
Print Assumptions C135_played_refuted.
