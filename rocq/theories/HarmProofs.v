(** Chord symbols in MEI: replacing texts, printing names, and what the reader takes. *)
From Coq Require Import List Ascii String Arith NArith ZArith Lia Bool Permutation.
From Verif Require Import PyStr PyStrProofs ClefModel HarteModel HarteProofs HarteSpec HarmModel.
Import ListNotations.

(** ** Replacing *)

Lemma u_prefix_app p t : u_prefix p (p ++ t) = Some t.
Proof. induction p as [|x p IH]; [reflexivity|]. cbn. rewrite N.eqb_refl. exact IH. Qed.
Lemma u_prefix_some p t r : u_prefix p t = Some r -> t = p ++ r.
Proof.
  revert t. induction p as [|x p IH]; intros t; cbn; [intro H; inversion H; reflexivity|].
  destruct t as [|y t]; [discriminate|]. destruct (N.eqb_spec x y); [|discriminate]. subst. intro H. f_equal. auto.
Qed.
Lemma u_sub_enough p r : p <> [] -> forall n t, List.length t <= n -> u_sub_n n p r t = u_sub_n (List.length t) p r t.
Proof.
  intros Hp. induction n as [n IH] using lt_wf_ind. intros t H.
  destruct n as [|n]; [destruct t; [reflexivity|cbn in H; lia]|].
  destruct t as [|c t].
  - cbn. destruct (u_prefix p []) as [t'|] eqn:E; [|reflexivity]. apply u_prefix_some in E. destruct p; [congruence|discriminate].
  - cbn [List.length] in *. cbn [u_sub_n]. destruct (u_prefix p (c :: t)) as [t'|] eqn:E.
    + f_equal. apply u_prefix_some in E. assert (L : List.length t' <= List.length t).
      { apply (f_equal (@List.length N)) in E. rewrite app_length in E. destruct p; [congruence|cbn in E; lia]. }
      rewrite (IH n) by lia. destruct (Nat.eq_dec n (List.length t)) as [->|]; [symmetry; apply IH; lia|].
      symmetry. apply IH; lia.
    + f_equal. apply IH; lia.
Qed.
Lemma u_sub_nil p r : u_sub p r [] = [].
Proof. reflexivity. Qed.
Lemma u_sub_hit p r t : p <> [] -> u_sub p r (p ++ t) = r ++ u_sub p r t.
Proof.
  intro Hp. unfold u_sub. destruct p as [|x p]; [congruence|]. cbn [app List.length u_sub_n].
  change (x :: p ++ t) with ((x :: p) ++ t). rewrite u_prefix_app. f_equal.
  apply u_sub_enough; [exact Hp|]. rewrite app_length. lia.
Qed.
Lemma u_sub_skip p r c t : u_prefix p (c :: t) = None -> u_sub p r (c :: t) = c :: u_sub p r t.
Proof. intro H. unfold u_sub. cbn [List.length u_sub_n]. rewrite H. reflexivity. Qed.
Lemma u_sub_absent p r x t : In x p -> ~ In x t -> u_sub p r t = t.
Proof.
  intros Hp. induction t as [|c t IH]; [reflexivity|]. intro H. rewrite u_sub_skip.
  - f_equal. apply IH. intro; apply H; right; assumption.
  - destruct (u_prefix p (c :: t)) as [q|] eqn:E; [|reflexivity]. apply u_prefix_some in E. exfalso. apply H. rewrite E.
    apply in_or_app. left. exact Hp.
Qed.
Lemma u_sub_char x r t : u_sub [x] r t = flat_map (fun c => if N.eqb c x then r else [c]) t.
Proof.
  induction t as [|c t IH]; [reflexivity|]. cbn [flat_map]. destruct (N.eqb_spec c x) as [->|H].
  - change (x :: t) with ([x] ++ t). rewrite u_sub_hit by discriminate. f_equal. exact IH.
  - rewrite u_sub_skip; [cbn; f_equal; exact IH|]. cbn. destruct (N.eqb_spec x c); [congruence|reflexivity].
Qed.

Lemma u_eqb_eq a b : u_eqb a b = true <-> a = b.
Proof.
  revert b. induction a as [|x a IH]; destruct b as [|y b]; cbn; try (split; congruence).
  rewrite andb_true_iff, N.eqb_eq, IH. split; [intros (-> & ->); reflexivity|intro H; inversion H; auto].
Qed.
Lemma u_in_In c l : u_in c l = true <-> In c l.
Proof.
  unfold u_in. rewrite existsb_exists. split.
  - intros (x & H & E). apply N.eqb_eq in E. subst. exact H.
  - intro H. exists c. split; [exact H|apply N.eqb_refl].
Qed.

(** ** Pitch names *)

(** The name of a pitch with signs: its letter and as many signs as semitones. *)
Definition signs (p : pname) : utext :=
  if (0 <=? p_alter p)%Z then repeat sign_sharp (Z.to_nat (p_alter p)) else repeat sign_flat (Z.to_nat (- p_alter p)).
Definition letter_code (p : pname) : N := nth (p_step p) [67; 68; 69; 70; 71; 65; 66]%N 67%N.

Lemma rep_repeat c n : rep c n = repeat c n.
Proof. reflexivity. Qed.
Lemma map_rep c n : u_of (rep c n) = repeat (N_of_ascii c) n.
Proof. rewrite rep_repeat. unfold u_of. induction n; cbn; [reflexivity|]. f_equal. assumption. Qed.
Lemma flat_repeat (f : N -> utext) x y n : f x = [y] -> flat_map f (repeat x n) = repeat y n.
Proof. intro H. induction n; cbn; [reflexivity|]. rewrite H. cbn. f_equal. assumption. Qed.
Lemma flat_same (f : N -> utext) x n : f x = [x] -> flat_map f (repeat x n) = repeat x n.
Proof. apply flat_repeat. Qed.
Lemma letter_codes p : p_step p < 7 -> N_of_ascii (letter (p_step p)) = letter_code p.
Proof. destruct p as [s a]. cbn. intro H. do 7 (destruct s as [|s]; [reflexivity|]). lia. Qed.
Lemma letter_plain p : p_step p < 7 -> In (letter_code p) [67; 68; 69; 70; 71; 65; 66]%N.
Proof. intro H. unfold letter_code. apply nth_In. cbn. lia. Qed.
Lemma name_signs_is p : p_step p < 7 -> name_signs p = letter_code p :: signs p.
Proof.
  intro H. unfold name_signs, with_signs, pitch_name. change (U "-") with [45%N]. change (U "#") with [35%N]. rewrite !u_sub_char.
  cbn [u_of map]. fold (u_of (accid "-"%char (p_alter p))). rewrite letter_codes by exact H.
  pose proof (letter_plain p H) as L. cbn [flat_map].
  assert (E1 : N.eqb (letter_code p) 35 = false) by (apply N.eqb_neq; intros Q; rewrite Q in L; cbn in L; intuition discriminate).
  assert (E2 : N.eqb (letter_code p) 45 = false) by (apply N.eqb_neq; intros Q; rewrite Q in L; cbn in L; intuition discriminate).
  rewrite E1. cbn [app flat_map]. rewrite E2. cbn [app]. f_equal.
  unfold accid, signs. destruct (Z.ltb_spec 0 (p_alter p)), (Z.leb_spec 0 (p_alter p)); try lia; rewrite map_rep.
  - rewrite (flat_repeat _ _ sign_sharp) by reflexivity. apply flat_same. reflexivity.
  - assert (p_alter p = 0)%Z as -> by lia. reflexivity.
  - rewrite (flat_same _ (N_of_ascii "-")) by reflexivity. apply flat_repeat. reflexivity.
Qed.
Lemma signs_leading p x : In x (signs p) -> In x leading.
Proof. unfold signs. destruct (0 <=? p_alter p)%Z; intro H; apply repeat_spec in H; subst x; cbn; auto 6. Qed.
Lemma signs_inj p q : signs p = signs q -> p_alter p = p_alter q.
Proof.
  unfold signs. intro H. pose proof (f_equal (@List.length N) H) as L.
  destruct (Z.leb_spec 0 (p_alter p)), (Z.leb_spec 0 (p_alter q)); rewrite !repeat_length in L; try lia.
  - destruct (Z.to_nat (- p_alter q)) eqn:E; [lia|]. destruct (Z.to_nat (p_alter p)) eqn:E'; [lia|]. discriminate.
  - destruct (Z.to_nat (- p_alter p)) eqn:E; [lia|]. destruct (Z.to_nat (p_alter q)) eqn:E'; [lia|]. discriminate.
Qed.
Lemma letter_inj p q : p_step p < 7 -> p_step q < 7 -> letter_code p = letter_code q -> p_step p = p_step q.
Proof.
  destruct p as [s a], q as [s' a']. unfold letter_code. cbn [p_step]. intros H H'.
  do 7 (destruct s as [|s]; [do 7 (destruct s' as [|s']; [cbn; first [reflexivity|discriminate]|]); lia|]). lia.
Qed.

(** ** The texts *)

Definition u_trimmed (t : utext) : Prop :=
  (forall c t', t = c :: t' -> u_space c = false) /\ (forall c t', t = t' ++ [c] -> u_space c = false).
Lemma u_lstrip_id t : (forall c t', t = c :: t' -> u_space c = false) -> u_lstrip t = t.
Proof. destruct t as [|c t]; [reflexivity|]. intro H. cbn. rewrite (H c t eq_refl). reflexivity. Qed.
Lemma u_strip_id t : u_trimmed t -> u_strip t = t.
Proof.
  intros (A & B). unfold u_strip. rewrite (u_lstrip_id t A). rewrite u_lstrip_id; [apply rev_involutive|].
  intros c t' E. apply (B c (rev t')). rewrite <- (rev_involutive t), E. reflexivity.
Qed.

Lemma drop_leading_app a t : (forall x, In x a -> In x leading) -> (forall c t', t = c :: t' -> ~ In c leading) -> drop_leading (a ++ t) = t.
Proof.
  intros Ha Ht. induction a as [|x a IH].
  - destruct t as [|c t]; [reflexivity|]. cbn [app drop_leading]. destruct (u_in c leading) eqn:E; [|reflexivity].
    apply u_in_In in E. destruct (Ht c t eq_refl E).
  - cbn [app drop_leading]. rewrite (proj2 (u_in_In x leading) (Ha x (or_introl eq_refl))). apply IH. intros y Hy. apply Ha. right. exact Hy.
Qed.
Lemma up_to_slash_app a t : ~ In 47%N a -> up_to_slash (a ++ 47%N :: t) = a.
Proof.
  induction a as [|x a IH]; cbn; [reflexivity|]. intro H. destruct (N.eqb_spec x 47); [subst; tauto|]. f_equal. apply IH. tauto.
Qed.
Lemma up_to_slash_none a : ~ In 47%N a -> up_to_slash a = a.
Proof. induction a as [|x a IH]; cbn; [reflexivity|]. intro H. destruct (N.eqb_spec x 47); [subst; tauto|]. f_equal. apply IH. tauto. Qed.

(** ** Harte texts have no full stops *)

Definition stop_free (s : str) : Prop := ~ In "."%char s.
Lemma stop_free_app a b : stop_free a -> stop_free b -> stop_free (a ++ b).
Proof. unfold stop_free. intros A B H. apply in_app_or in H. tauto. Qed.
Lemma stop_free_digits n : stop_free (show_N n).
Proof. intro H. pose proof (show_N_digits n) as D. rewrite forallb_forall in D. specialize (D _ H). vm_compute in D. discriminate. Qed.
Lemma stop_free_spell a n : stop_free (spell a n).
Proof.
  unfold spell. apply stop_free_app; [|apply stop_free_digits].
  destruct (0 <=? a)%Z; intro H; apply repeat_spec in H; discriminate.
Qed.
Lemma stop_free_cons c s : c <> "."%char -> stop_free s -> stop_free (c :: s).
Proof. intros A B [H|H]; [congruence|exact (B H)]. Qed.
Lemma stop_free_join l : (forall d, In d l -> stop_free d) -> stop_free (join (S_ ",") l).
Proof.
  intro H. induction l as [|a l IH]; [intros []|]. destruct l as [|b l]; [cbn; apply H; left; reflexivity|].
  cbn [join]. apply stop_free_app; [apply H; left; reflexivity|]. apply stop_free_app; [intros [Q|[]]; discriminate|].
  apply IH. intros d Hd. apply H. right. exact Hd.
Qed.
