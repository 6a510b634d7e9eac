(** Property theorems C100 (durations) and C101 (tremolos) in MEI. *)
From Coq Require Import QArith Qpower Lqa Lia Bool.
From Verif Require Import PyStr PyStrProofs MeiDurModel.
Local Close Scope Q_scope.

(** The length of an undotted note of a type, in quarter notes. *)
Definition len_of (t : dtype) : Q :=
  match t with
  | TMaxima => 32 # 1 | TLonga => 16 # 1 | TBreve => 8 # 1 | TWhole => 4 # 1 | THalf => 2 # 1 | TQuarter => 1 # 1
  | TEighth => 1 # 2 | T16th => 1 # 4 | T32nd => 1 # 8 | T64th => 1 # 16 | T128th => 1 # 32 | T256th => 1 # 64
  | T512th => 1 # 128 | T1024th => 1 # 256 | T2048th => 1 # 512 | TOther => 0
  end%Q.
(** Each dot adds half of what was added last. *)
Fixpoint with_dots (len : Q) (n : nat) : Q :=
  match n with O => len | S k => (len + with_dots (len / 2) k)%Q end.
Lemma dotted_with_dots n : forall len, (dotted len n == with_dots len (N.to_nat n))%Q.
Proof.
  assert (G : forall k len, (len * (2 - / (2 ^ Z.of_nat k)) == with_dots len k)%Q).
  { induction k as [|k IH]; intros len; [cbn; field|]. cbn [with_dots]. rewrite <- IH.
    rewrite Nat2Z.inj_succ. unfold Z.succ. rewrite Qpower_plus by discriminate. change (2 ^ 1)%Q with 2%Q.
    rewrite Qinv_mult_distr. field. apply Qpower_not_0. discriminate. }
  intros len. unfold dotted. rewrite <- (N2Nat.id n) at 1. rewrite nat_N_Z. apply G.
Qed.

Lemma durAttr_meiDur t : durAttr (meiDur t) = Some (len_of t).
Proof. destruct t; reflexivity. Qed.
Lemma meiDur_inj t u : meiDur t = meiDur u -> t = u.
Proof. destruct t, u; intros H; try reflexivity; discriminate. Qed.
Lemma len_pos t : t <> TOther -> Qeq_bool (len_of t) 0 = false.
Proof. destruct t; intros H; try reflexivity. congruence. Qed.
Lemma show_ne n : exists c s, show_N n = c :: s.
Proof. destruct (show_N_cons n) as (c & s & E & _). eauto. Qed.
Lemma read_dots n : match (if str_eqb (show_N n) (S_ "0") then [] else show_N n) with [] => 0%N | s => parse_N s end = n.
Proof.
  destruct (str_eqb (show_N n) (S_ "0")) eqn:E.
  - apply str_eqb_eq in E. apply show_N_inj. symmetry. exact E.
  - destruct (show_ne n) as (c & s & X). rewrite X. rewrite <- X. apply parse_show_N.
Qed.

(** What music21 is taken to do: a length that is a note of the table with up to
    four dots is given that type and these dots. *)
Definition classifies (classify : Q -> dtype * N) : Prop :=
  forall q t n, t <> TOther -> (n <= 4)%N -> (q == with_dots (len_of t) (N.to_nat n))%Q -> classify q = (t, n).

(** A duration of a type of the table comes back with its type and dots.  If it is
    not linked, it comes back with its sounding length (before tuplets; doubled
    in a tremolo between two notes), if that length can be written with one note
    of up to four dots.  "Partial" because other sounding lengths are not kept. *)
Theorem C100_durations_partial : forall classify dflt inFTrem d, classifies classify -> d_type d <> TOther ->
  (d_linked d = true ->
     exists r, readDur dflt (writeDur classify inFTrem d) = Some r /\
       r_base r = len_of (d_type d) /\ r_dots r = d_dots d /\ r_linked r = true /\
       (r_ql r == with_dots (len_of (d_type d)) (N.to_nat (d_dots d)))%Q) /\
  (d_linked d = false ->
     let sounding := (d_ql d / d_mult d * if inFTrem then 2 else 1)%Q in
     (exists t n, t <> TOther /\ (n <= 4)%N /\ sounding == with_dots (len_of t) (N.to_nat n))%Q ->
     exists r, readDur dflt (writeDur classify inFTrem d) = Some r /\
       r_base r = len_of (d_type d) /\ r_dots r = d_dots d /\ (r_ql r == sounding)%Q).
Proof.
  intros classify dflt inF [t n m lk ql] CL T. cbn [d_type d_dots d_linked d_ql d_mult] in *. unfold writeDur. cbn [d_type d_dots d_linked d_ql d_mult].
  split.
  - intros ->. unfold readDur. cbn [a_dur a_dots a_durges a_dotsges]. rewrite durAttr_meiDur. cbn [durAttr].
    rewrite (len_pos _ T), read_dots. rewrite (len_pos _ T). cbn. eexists. split; [reflexivity|]. cbn.
    do 3 (split; [reflexivity|]). apply dotted_with_dots.
  - intros ->. cbv zeta. intros (gt & gn & GT & GN & GE).
    set (ges := if inF then (ql / m * 2)%Q else (ql / m)%Q).
    assert (GE' : (ges == ql / m * (if inF then 2 else 1))%Q) by (unfold ges; destruct inF; ring).
    rewrite <- GE' in GE. rewrite (CL _ _ _ GT GN GE).
    match goal with |- exists r, ?R = Some r /\ _ =>
      enough (EN : exists r, R = Some r /\ r_base r = len_of t /\ r_dots r = n /\ (r_ql r == ges)%Q)
        by (destruct EN as (r & E1 & E2 & E3 & E4); exists r; rewrite E4; auto) end.
    clear GE'. clearbody ges.
    rewrite <- (dotted_with_dots gn) in GE.
    assert (F : forall durGes dotsGes,
      (durGes = [] /\ gt = t \/ durGes = meiDur gt /\ gt <> t) ->
      (dotsGes = [] /\ (gt = t /\ gn = n \/ gt <> t /\ gn = 0%N) \/ dotsGes = show_N gn) ->
      exists r, readDur dflt (mkA (meiDur t) (if str_eqb (show_N n) (S_ "0") then [] else show_N n) durGes dotsGes) = Some r /\
        r_base r = len_of t /\ r_dots r = n /\ (r_ql r == ges)%Q).
    { intros durGes dotsGes H1 H2. unfold readDur. cbn [a_dur a_dots a_durges a_dotsges]. rewrite durAttr_meiDur, read_dots.
      assert (W : forall q, (q == ges)%Q ->
        exists r, Some (if Qeq_bool q (dotted (len_of t) n) then mkR (len_of t) n true (dotted (len_of t) n) else mkR (len_of t) n false q) = Some r /\
          r_base r = len_of t /\ r_dots r = n /\ (r_ql r == ges)%Q).
      { intros q E. eexists. split; [reflexivity|]. destruct (Qeq_bool q _) eqn:X; cbn; (split; [reflexivity|]); (split; [reflexivity|]); [|exact E].
        apply Qeq_bool_iff in X. rewrite <- X. exact E. }
      destruct H1 as [[-> ->]|[-> NE]].
      - cbn [durAttr]. rewrite (len_pos _ T), (len_pos _ T). change (Qeq_bool 0 0) with true. cbv beta iota zeta.
        destruct H2 as [[-> [[_ ->]|[C _]]]| ->]; [|congruence|].
        + eexists. split; [reflexivity|]. split; [reflexivity|]. split; [reflexivity|]. cbn. symmetry. exact GE.
        + destruct (show_ne gn) as (c & s & X). rewrite X. rewrite <- X. rewrite parse_show_N. apply W. symmetry. exact GE.
      - rewrite durAttr_meiDur. rewrite (len_pos _ T), (len_pos _ T), (len_pos _ GT). cbv beta iota zeta.
        destruct H2 as [[-> [[C _]|[_ ->]]]| ->]; [congruence| |].
        + apply W. symmetry. exact GE.
        + destruct (show_ne gn) as (c & s & X). rewrite X. rewrite <- X. rewrite parse_show_N. apply W. symmetry. exact GE. }
    destruct (str_eqb (meiDur gt) (meiDur t)) eqn:E.
    + apply str_eqb_eq in E. apply meiDur_inj in E. subst gt. apply F; [left; auto|].
      destruct (str_eqb (show_N gn) (show_N n)) eqn:E2; [|right; reflexivity].
      apply str_eqb_eq in E2. apply show_N_inj in E2. subst gn. left. auto.
    + apply str_eqb_neq in E.
      assert (NE : gt <> t) by (intros ->; apply E; reflexivity).
      assert (M : exists c s, meiDur gt = c :: s) by (destruct gt; cbn; eauto; congruence).
      destruct M as (c & s & M). rewrite M. apply F; [right; auto|].
      destruct (is_zero_str (show_N gn) && is_zero_str (show_N n)) eqn:Z; [|right; reflexivity].
      left. split; [reflexivity|]. right. split; [exact NE|]. apply andb_true_iff in Z. destruct Z as [Z _].
      unfold is_zero_str in Z. apply orb_true_iff in Z. destruct Z as [Z|Z]; apply str_eqb_eq in Z.
      * apply show_N_inj. rewrite Z. reflexivity.
      * destruct (show_ne gn) as (x & y & X). congruence.
Qed.
Print Assumptions C100_durations_partial.

(** A classifier, to show that the assumption can be met: it tries all. *)
Definition all_types := [TMaxima; TLonga; TBreve; TWhole; THalf; TQuarter; TEighth; T16th; T32nd; T64th; T128th; T256th; T512th; T1024th; T2048th].
Definition try_all (q : Q) : dtype * N :=
  match find (fun x => Qeq_bool q (with_dots (len_of (fst x)) (N.to_nat (snd x)))) (list_prod all_types [0; 1; 2; 3; 4]%N) with
  | Some x => x
  | None => (TOther, 0%N)
  end.
Lemma try_all_classifies : classifies try_all.
Proof.
  intros q t n T N E. unfold try_all.
  assert (X : find (fun x => Qeq_bool q (with_dots (len_of (fst x)) (N.to_nat (snd x)))) (list_prod all_types [0; 1; 2; 3; 4]%N)
            = find (fun x => Qeq_bool (with_dots (len_of t) (N.to_nat n)) (with_dots (len_of (fst x)) (N.to_nat (snd x)))) (list_prod all_types [0; 1; 2; 3; 4]%N)).
  { induction (list_prod all_types [0; 1; 2; 3; 4]%N) as [|x l IH]; [reflexivity|]. cbn [find]. rewrite IH.
    replace (Qeq_bool q (with_dots (len_of (fst x)) (N.to_nat (snd x))))
      with (Qeq_bool (with_dots (len_of t) (N.to_nat n)) (with_dots (len_of (fst x)) (N.to_nat (snd x)))); [reflexivity|].
    apply eq_true_iff_eq. rewrite !Qeq_bool_iff, E. reflexivity. }
  rewrite X.
  assert (C : n = 0%N \/ n = 1%N \/ n = 2%N \/ n = 3%N \/ n = 4%N) by lia.
  destruct C as [->|[->|[->|[->| ->]]]]; destruct t; try congruence; vm_compute; reflexivity.
Qed.
Example C100_nonvacuous : classifies try_all /\
  writeDur try_all false (mkD TQuarter 1 1 false (7 # 8)) = mkA (S_ "4") (S_ "1") (S_ "8") (S_ "2") /\
  option_map r_ql (readDur 1 (mkA (S_ "4") (S_ "1") (S_ "8") (S_ "2"))) = Some (dotted (1 # 2) 2) /\
  (7 # 8 == with_dots (len_of TEighth) 2)%Q.
Proof. split; [exact try_all_classifies|]. split; [vm_compute; reflexivity|]. split; vm_compute; reflexivity. Qed.

(** A sounding length of a third of a quarter never comes back, whatever type
    music21 finds for it: the attributes cannot express it. *)
Lemma pow2_mod3 k : ((2 ^ Z.of_nat k) mod 3 <> 0)%Z.
Proof.
  assert (G : forall k, ((2 ^ Z.of_nat k) mod 3 = 1 \/ (2 ^ Z.of_nat k) mod 3 = 2)%Z).
  { induction k0 as [|j IH]; [left; reflexivity|]. rewrite Nat2Z.inj_succ, Z.pow_succ_r by lia.
    rewrite Z.mul_mod by lia. destruct IH as [-> | ->]; [right|left]; reflexivity. }
  destruct (G k) as [-> | ->]; discriminate.
Qed.
Lemma dotted_not_third z k : forall len, (len == z # 512)%Q -> ~ (dotted len k == 1 # 3)%Q.
Proof.
  intros len E H. unfold dotted in H. rewrite E in H. clear E.
  rewrite <- (N2Nat.id k), nat_N_Z in H.
  assert (P : (/ (2 ^ Z.of_nat (N.to_nat k)) * inject_Z (2 ^ Z.of_nat (N.to_nat k)) == 1)%Q).
  { rewrite Zpower_Qpower by lia. change (inject_Z 2) with 2%Q. field. apply Qpower_not_0. discriminate. }
  set (w := (2 ^ Z.of_nat (N.to_nat k))%Z) in *. set (iw := (/ (2 ^ Z.of_nat (N.to_nat k)))%Q) in *.
  assert (M : (inject_Z z * (2 * inject_Z w - 1) * 3 == 512 * inject_Z w)%Q).
  { assert (H2 : ((z # 512) * (2 - iw) * inject_Z w * 1536 == (1 # 3) * inject_Z w * 1536)%Q) by (rewrite H; reflexivity).
    assert (Z1 : ((z # 512) == inject_Z z * (1 # 512))%Q) by (unfold Qeq, Qmult, inject_Z; cbn [Qnum Qden]; lia).
    rewrite Z1 in H2.
    assert (H3 : (inject_Z z * (1 # 512) * (2 - iw) * inject_Z w * 1536 == inject_Z z * 3 * (2 * inject_Z w - iw * inject_Z w))%Q) by ring.
    rewrite H3, P in H2.
    transitivity (inject_Z z * 3 * (2 * inject_Z w - 1))%Q; [ring|]. rewrite H2. ring. }
  assert (I : (z * (2 * w - 1) * 3 = 512 * w)%Z).
  { assert (X : (inject_Z (z * (2 * w - 1) * 3) == inject_Z (512 * w))%Q).
    { rewrite !inject_Z_mult. unfold Z.sub. rewrite inject_Z_plus, inject_Z_mult, inject_Z_opp. exact M. }
    unfold Qeq, inject_Z in X. cbn [Qnum Qden] in X. lia. }
  apply (pow2_mod3 (9 + N.to_nat k)). rewrite Nat2Z.inj_add, Z.pow_add_r by lia. fold w. change (2 ^ Z.of_nat 9)%Z with 512%Z.
  rewrite <- I. apply Z.mod_mul. lia.
Qed.
Lemma len_512 t : exists z, (len_of t == z # 512)%Q.
Proof.
  destruct t; [exists 16384%Z|exists 8192%Z|exists 4096%Z|exists 2048%Z|exists 1024%Z|exists 512%Z|exists 256%Z|exists 128%Z|exists 64%Z
              |exists 32%Z|exists 16%Z|exists 8%Z|exists 4%Z|exists 2%Z|exists 1%Z|exists 0%Z]; reflexivity.
Qed.
Theorem C100_third_refuted : forall classify dflt r,
  readDur dflt (writeDur classify false (mkD TQuarter 0 1 false (1 # 3))) = Some r -> ~ (r_ql r == 1 # 3)%Q.
Proof.
  intros classify dflt r H. unfold writeDur in H. cbn [d_type d_dots d_linked d_ql d_mult] in H.
  destruct (classify ((1 # 3) / 1)%Q) as [gt gn].
  assert (F : forall a, a_dur a = S_ "4" -> (a_durges a = [] \/ a_durges a = meiDur gt) -> readDur dflt a = Some r -> ~ (r_ql r == 1 # 3)%Q).
  { clear H. intros a A1 A2 H. unfold readDur in H. rewrite A1 in H. change (durAttr (S_ "4")) with (Some 1%Q) in H.
    assert (G : exists t, durAttr (a_durges a) = Some (len_of t)).
    { destruct A2 as [-> | ->]; [exists TOther; reflexivity|exists gt; apply durAttr_meiDur]. }
    destruct G as (t & G). rewrite G in H. change (Qeq_bool 1 0) with false in H. cbv beta iota zeta in H. change (Qeq_bool 1 0) with false in H. cbv iota in H.
    set (n := match a_dots a with [] => 0%N | s => parse_N s end) in *.
    destruct (len_512 t) as (z & Z).
    assert (D : forall q, ~ (q == 1 # 3)%Q -> ~ (r_ql (if Qeq_bool q (dotted 1 n) then mkR 1 n true (dotted 1 n) else mkR 1 n false q) == 1 # 3)%Q).
    { intros q Q. destruct (Qeq_bool q (dotted 1 n)); cbn; [apply (dotted_not_third 512); reflexivity|exact Q]. }
    injection H as <-.
    destruct (Qeq_bool (len_of t) 0); destruct (match a_dotsges a with [] => None | s => Some (parse_N s) end) as [k|].
    - apply D. apply (dotted_not_third 512). reflexivity.
    - cbn. apply (dotted_not_third 512). reflexivity.
    - apply D. apply (dotted_not_third z). exact Z.
    - apply D. apply (dotted_not_third z). exact Z. }
  eapply F; [| |exact H].
  - match goal with |- a_dur (let '(_, _) := ?x in _) = _ => destruct x; reflexivity end.
  - destruct (str_eqb (meiDur gt) _); cbn [a_durges].
    + left. destruct (str_eqb _ _); reflexivity.
    + destruct (meiDur gt) as [|c s]; [left; destruct (str_eqb _ _); reflexivity|right].
      destruct (is_zero_str _ && _); reflexivity.
Qed.
Print Assumptions C100_third_refuted.

(** Tremolos. *)

(** A tremolo on one note without flags comes back with its marks. *)
Theorem C101_single_partial : forall t marks, (1 <= len_of t)%Q -> 1 <= marks <= 8 ->
  exists u, writeBTrem t marks = Some u /\ readBTrem u = marks.
Proof.
  intros t marks L M.
  assert (F : flags_of_type t = 0) by (destruct t; try reflexivity; exfalso; revert L; vm_compute; intros L; apply L; reflexivity).
  unfold writeBTrem. rewrite F, Nat.add_0_r.
  do 9 (destruct marks as [|marks]; [lia || (eexists; split; [reflexivity|vm_compute; reflexivity])|]). lia.
Qed.
Print Assumptions C101_single_partial.
Example C101_single_nonvacuous : writeBTrem THalf 3 = Some (S_ "32") /\ readBTrem (S_ "32") = 3.
Proof. split; reflexivity. Qed.

(** On a note with flags it comes back with too many marks, as its flags are
    counted with them (unless that would be nine, which are made eight). *)
Theorem C101_single_flags : forall t marks, t <> TOther -> (len_of t < 1)%Q -> 1 <= marks -> marks + flags_of_type t <= 8 ->
  exists u, writeBTrem t marks = Some u /\ marks < readBTrem u.
Proof.
  intros t marks T L M1 M2.
  assert (F : 1 <= flags_of_type t) by (destruct t; cbn; try lia; try (exfalso; revert L; vm_compute; discriminate); congruence).
  unfold writeBTrem. remember (marks + flags_of_type t) as n eqn:E.
  do 9 (destruct n as [|n]; [lia || (eexists; split; [reflexivity|vm_compute; lia])|]). lia.
Qed.
Print Assumptions C101_single_flags.
Example C101_single_flags_nonvacuous : writeBTrem TEighth 1 = Some (S_ "16") /\ readBTrem (S_ "16") = 2.
Proof. split; reflexivity. Qed.
Theorem C101_single_refuted : exists t marks u, t <> TOther /\ 1 <= marks <= 8 /\
  writeBTrem t marks = Some u /\ readBTrem u <> marks.
Proof. exists TEighth, 2, (S_ "32"). split; [discriminate|]. split; [lia|]. split; [reflexivity|]. vm_compute. lia. Qed.
Print Assumptions C101_single_refuted.

(** A tremolo between two undotted notes comes back with its marks, and each
    note sounds half of the written length. *)
Theorem C101_pair_partial : forall t marks, t <> TOther -> 1 <= marks <= 8 -> marks + flags_of_type t <= 9 ->
  exists b, writeFTrem t marks = Some b /\ fst (readFTrem b (len_of t)) = marks /\ (snd (readFTrem b (len_of t)) == len_of t / 2)%Q.
Proof.
  intros t marks T M1 M2.
  assert (FE : flags_of_ql (len_of t) = flags_of_type t) by (destruct t; vm_compute; reflexivity || (exfalso; apply T; reflexivity)).
  assert (U : forall n, 1 <= n <= 9 -> exists c s, unitDur n = c :: s /\ numBeams (c :: s) = n).
  { intros n H. do 10 (destruct n as [|n]; [lia || (eexists; eexists; split; [reflexivity|vm_compute; reflexivity])|]). lia. }
  destruct (U (marks + flags_of_type t)) as (c & s & U1 & U2); [lia|].
  unfold writeFTrem. rewrite U1, U2. eexists. split; [reflexivity|]. unfold readFTrem. rewrite FE, Nat2N.id.
  replace (marks + flags_of_type t - flags_of_type t) with marks by lia.
  unfold nine_is_eight. replace (marks =? 9) with false by (symmetry; apply Nat.eqb_neq; lia). cbn [fst snd].
  split; [reflexivity|]. replace (0 <? marks) with true by (symmetry; apply Nat.ltb_lt; lia). reflexivity.
Qed.
Print Assumptions C101_pair_partial.
Example C101_pair_nonvacuous : writeFTrem TEighth 2 = Some 3%N /\ fst (readFTrem 3 (len_of TEighth)) = 2.
Proof. split; reflexivity. Qed.

(** Between dotted notes with flags it comes back with too many marks. *)
Theorem C101_pair_refuted : exists t dots marks b, t <> TOther /\ 1 <= marks <= 8 /\
  writeFTrem t marks = Some b /\ marks < fst (readFTrem b (with_dots (len_of t) dots)).
Proof. exists TEighth, 1, 2, 3%N. split; [discriminate|]. split; [lia|]. split; [reflexivity|]. vm_compute. lia. Qed.
Print Assumptions C101_pair_refuted.
