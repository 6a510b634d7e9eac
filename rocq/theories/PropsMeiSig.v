(** Property theorem C104: clefs, key and time signatures in MEI. *)
From Coq Require Import ZArith Lia Bool.
From Verif Require Import PyStr PyStrProofs NamesModel NamesProofs MeiPitchModel PropsMeiPitch MeiSigModel.

(** What music21 is taken to do: a letter G, F or C and a line from 1 to 5 name
    the clef with that sign on that line. *)
Definition names_clefs (clefFromString : str -> Z -> mclef) : Prop :=
  forall c n sh, In c [S_ "G"; S_ "F"; S_ "C"] -> (1 <= n <= 5)%N -> (-3 <= sh <= 3)%Z ->
  k_sign (clefFromString (c ++ show_N n) sh) = c /\ k_line (clefFromString (c ++ show_N n) sh) = Some n /\
  k_oct (clefFromString (c ++ show_N n) sh) = sh.
(** The clefs in use. *)
Definition usual_clef (c : mclef) : Prop :=
  (In (k_sign c) [S_ "G"; S_ "F"; S_ "C"] /\ (exists n, k_line c = Some n /\ (1 <= n <= 5)%N) /\ (-3 <= k_oct c <= 3)%Z) \/
  (k_sign c = S_ "percussion" /\ k_line c = None /\ k_oct c = 0%Z) \/
  (k_sign c = S_ "TAB" /\ k_line c = Some 5%N /\ k_oct c = 0%Z).

(** Every usual clef comes back. *)
Theorem C104_clef : forall clefFromString c, names_clefs clefFromString -> usual_clef c ->
  exists a, writeClef c = Some a /\ readClef clefFromString a = c.
Proof.
  intros cfs [sg ln oc hd] NC U. unfold usual_clef in U. cbn [k_sign k_line k_oct] in U.
  destruct U as [(S1 & (n & -> & N1) & O1)|[(-> & -> & ->)|(-> & -> & ->)]].
  2, 3: (eexists; split; [reflexivity|reflexivity]).
  assert (NN : str_eqb sg (S_ "none") = false /\ str_eqb sg (S_ "percussion") = false /\ str_eqb sg (S_ "perc") = false /\
    str_eqb sg (S_ "TAB") = false /\ str_eqb sg (S_ "GG") = false).
  { cbn [In] in S1. destruct S1 as [<-|[<-|[<-|[]]]]; repeat split. }
  destruct NN as (N2 & N3 & N4 & N5 & N6).
  unfold writeClef. cbn [k_sign k_line k_oct k_hidden option_map]. rewrite N2, N3.
  assert (O2 : (oc = -3 \/ oc = -2 \/ oc = -1 \/ oc = 0 \/ oc = 1 \/ oc = 2 \/ oc = 3)%Z) by lia.
  specialize (NC sg n oc S1 N1 O1).
  destruct O2 as [-> |[-> |[-> |[-> |[-> |[-> | -> ]]]]]]; eexists; (split; [reflexivity|]);
    unfold readClef; cbn [ca_shape ca_line ca_dis ca_place ca_hidden]; rewrite N4, N5, N6;
    (match goal with |- context [getOctaveShift ?a ?b] => let v := eval vm_compute in (getOctaveShift a b) in change (getOctaveShift a b) with v end);
    destruct NC as (-> & -> & ->); reflexivity.
Qed.
Print Assumptions C104_clef.
Example C104_clef_nonvacuous : names_clefs (fun s sh => mkClef (firstn 1 s) (Some (parse_N (skipn 1 s))) sh false) /\
  writeClef (mkClef (S_ "G") (Some 2%N) (-1)%Z false) = Some (mkCA (S_ "G") (Some (S_ "2")) (Some (S_ "8")) (Some (S_ "below")) false).
Proof.
  split; [|reflexivity]. intros c n sh C _ _. cbn [In] in C. 
  destruct C as [<-|[<-|[<-|[]]]]; cbn [k_sign k_line k_oct]; (split; [reflexivity|]); (split; [|reflexivity]);
  (rewrite <- (parse_show_N n) at 2); reflexivity.
Qed.

(** A usual key signature with up to nine sharps or flats comes back; a key with
    its tonic and mode. *)
Theorem C104_key_partial : forall keySharps asKey k n,
  ks_sharps k = Some n -> (-9 <= n <= 9)%Z ->
  (forall st ac m, ks_key k = Some (st, ac, m) ->
     In st step_names /\ m <> [] /\ keySharps st ac m = n /\
     forall a, ac = Some a -> exists q, quarters a = Some q /\ (Z.abs q <= 6)%Z) ->
  readKey keySharps asKey (writeKey k) = Some k.
Proof.
  intros keySharps asKey [sh key hd] n E R K. cbn [ks_sharps ks_key] in *. subst sh.
  assert (SG : sharpsFromAttr (meiSig (Some n)) = n).
  { assert (O : exists i, i < 19 /\ n = (Z.of_nat i - 9)%Z) by (exists (Z.to_nat (n + 9)); lia).
    destruct O as (i & I & ->). do 19 (destruct i as [|i]; [vm_compute; reflexivity|]). lia. }
  unfold writeKey, readKey. cbn [ks_key ks_sharps ks_hidden]. destruct key as [[[st ac] m]|].
  - destruct (K st ac m eq_refl) as (ST & M & KS & AC). destruct m as [|c m]; [congruence|].
    cbn [ka_pname ka_mode ka_accid ka_sig ka_hidden]. rewrite SG.
    assert (UP : to_upper (to_lower st) = st) by (revert ST; clear; cbn [In step_names]; intuition (subst; reflexivity)).
    assert (AA : opt_bind (match match ac with Some x => meiAccid x | None => [] end with [] => None | _ :: _ => Some (match ac with Some x => meiAccid x | None => [] end) end) accidAttr = ac).
    { destruct ac as [a|]; [|reflexivity]. destruct (AC a eq_refl) as (q & Q1 & Q2).
      destruct a; cbn [quarters] in Q1; try discriminate; injection Q1 as <-; try (exfalso; lia); reflexivity. }
    rewrite UP. rewrite AA. destruct (asKey n (c :: m)) as [s2 a2]. rewrite KS, Z.eqb_refl. reflexivity.
  - cbn [ka_pname ka_mode ka_accid ka_sig ka_hidden]. rewrite SG. reflexivity.
Qed.
Print Assumptions C104_key_partial.
Example C104_key_nonvacuous : writeKey (mkKS (Some (-2)%Z) (Some ("B"%char, Some AFlat, S_ "major")) false)
  = mkKA (Some (S_ "b")) (Some (S_ "major")) (Some (S_ "f")) (Some (S_ "2f")) false.
Proof. reflexivity. Qed.

(** With ten sharps or more it does not come back: of the number only the first
    digit is read. *)
Theorem C104_key_refuted : forall keySharps asKey, exists k, ks_sharps k = Some 10%Z /\
  readKey keySharps asKey (writeKey k) = Some (mkKS (Some 1%Z) None false).
Proof. intros. exists (mkKS (Some 10%Z) None false). split; reflexivity. Qed.
Print Assumptions C104_key_refuted.
(** An unusual key signature comes back as one without accidentals. *)
Theorem C104_unusual_refuted : forall keySharps asKey, exists k, ks_sharps k = None /\
  readKey keySharps asKey (writeKey k) = Some (mkKS (Some 0%Z) None false).
Proof. intros. exists (mkKS None None false). split; reflexivity. Qed.
Print Assumptions C104_unusual_refuted.

Lemma show_nonempty n : nonempty (Some (show_N n)) = Some (show_N n).
Proof. destruct (show_N_cons n) as (c & s & -> & _). reflexivity. Qed.
Lemma show_is n m : str_eqb (show_N n) (show_N m) = (n =? m)%N.
Proof.
  destruct (N.eqb_spec n m) as [->|NE]; [apply str_eqb_eq; reflexivity|]. apply str_eqb_neq. intros H. apply NE, show_N_inj, H.
Qed.

(** A visible time signature comes back with its numbers, and with its sign if it
    is the usual one. *)
Theorem C104_time_partial : forall t, ts_hidden t = false ->
  exists t', readTime (writeTime t) = Some t' /\ ts_num t' = ts_num t /\ ts_den t' = ts_den t /\
  (ts_sym t = [] \/ (ts_sym t = S_ "cut" /\ ts_num t = 2 /\ ts_den t = 2)%N \/ (ts_sym t = S_ "common" /\ ts_num t = 4 /\ ts_den t = 4)%N ->
   t' = t).
Proof.
  intros [n d sy h] H. cbn [ts_hidden] in H. subst h. cbn [ts_num ts_den ts_sym].
  assert (E : match ta_sym (writeTime (mkTS n d sy false)) with Some s => s | None => [] end = sy) by (destruct sy; reflexivity).
  unfold readTime. rewrite E. unfold writeTime. cbn [ts_num ts_den ts_sym ts_hidden ta_count ta_unit none_or].
  change (S_ "2") with (show_N 2). change (S_ "4") with (show_N 4). rewrite !show_is, !show_nonempty, !parse_show_N.
  destruct (str_eqb sy (S_ "cut") && (n =? 2)%N && (d =? 2)%N) eqn:A.
  { apply andb_prop in A. destruct A as [A A3]. apply andb_prop in A. destruct A as [A1 A2].
    apply str_eqb_eq in A1. apply N.eqb_eq in A2, A3. subst. eexists. split; [reflexivity|]. repeat split. }
  destruct (str_eqb sy (S_ "common") && (n =? 4)%N && (d =? 4)%N) eqn:B.
  { apply andb_prop in B. destruct B as [B B3]. apply andb_prop in B. destruct B as [B1 B2].
    apply str_eqb_eq in B1. apply N.eqb_eq in B2, B3. subst. eexists. split; [reflexivity|]. repeat split. }
  eexists. split; [reflexivity|]. cbn [ts_num ts_den]. split; [reflexivity|]. split; [reflexivity|].
  intros [-> |[(-> & -> & ->)|(-> & -> & ->)]]; [reflexivity|discriminate A|discriminate B].
Qed.
Print Assumptions C104_time_partial.
Example C104_time_nonvacuous : readTime (writeTime (mkTS 2 2 (S_ "cut") false)) = Some (mkTS 2 2 (S_ "cut") false) /\
  readTime (writeTime (mkTS 12 8 [] false)) = Some (mkTS 12 8 [] false).
Proof. split; reflexivity. Qed.

(** A hidden time signature comes back visible; the sign of another meter is lost. *)
Theorem C104_time_refuted :
  (exists t, ts_hidden t = true /\ exists t', readTime (writeTime t) = Some t' /\ ts_hidden t' = false) /\
  (exists t, ts_sym t = S_ "cut" /\ exists t', readTime (writeTime t) = Some t' /\ ts_sym t' = []).
Proof.
  split; [exists (mkTS 3 4 [] true)|exists (mkTS 4 2 (S_ "cut") false)]; (split; [reflexivity|]); eexists; split; reflexivity.
Qed.
Print Assumptions C104_time_refuted.
