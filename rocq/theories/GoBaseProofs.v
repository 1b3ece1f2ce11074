(** Lemmas about GoBase. *)
From Verif Require Import GoBase.
From Coq Require Import Strings.Byte ZifyBool ZifyNat ZifyN Permutation Sorting.Sorted.
Ltac Zify.zify_post_hook ::= Z.div_mod_to_equations.

Lemma b2z_range b : 0 <= b2z b < 256.
Proof. destruct b; vm_compute; split; congruence. Qed.

Lemma z2b_b2z b : z2b (b2z b) = b.
Proof. destruct b; reflexivity. Qed.

Lemma b2z_inj a b : b2z a = b2z b -> a = b.
Proof. intros H. rewrite <- (z2b_b2z a), <- (z2b_b2z b), H. reflexivity. Qed.

Lemma b2z_z2b z : b2z (z2b z) = z mod 256.
Proof.
  unfold z2b, b2z.
  destruct (Byte.of_N (Z.to_N (z mod 256))) as [b|] eqn:E.
  - apply Byte.to_of_N in E. rewrite E. rewrite Z2N.id; lia.
  - exfalso. apply Byte.of_N_None_iff in E. lia.
Qed.

Lemma z2b_mod z : z2b (z mod 256) = z2b z.
Proof. unfold z2b. rewrite Z.mod_mod by lia. reflexivity. Qed.

Lemma beqb_eq a b : beqb a b = true <-> a = b.
Proof.
  unfold beqb. destruct (Byte.eqb a b) eqn:E.
  - apply Byte.byte_dec_bl in E. tauto.
  - split; [congruence|]. intros ->. exfalso.
    assert (Byte.eqb b b = true) by (apply Byte.byte_dec_lb; reflexivity). congruence.
Qed.
Lemma beqb_refl a : beqb a a = true.
Proof. apply beqb_eq. reflexivity. Qed.
Lemma beqb_neq a b : beqb a b = false <-> a <> b.
Proof. rewrite <- beqb_eq. destruct (beqb a b); split; congruence. Qed.

Lemma bytes_eqb_eq a b : bytes_eqb a b = true <-> a = b.
Proof.
  revert b; induction a as [|x a IH]; intros [|y b]; cbn; try (split; congruence).
  rewrite andb_true_iff, beqb_eq, IH. split; [intros [-> ->]; reflexivity|].
  intros [= -> ->]; auto.
Qed.
Lemma bytes_eqb_refl a : bytes_eqb a a = true.
Proof. apply bytes_eqb_eq. reflexivity. Qed.
Lemma bytes_eqb_neq a b : bytes_eqb a b = false <-> a <> b.
Proof. rewrite <- bytes_eqb_eq. destruct (bytes_eqb a b); split; congruence. Qed.
Lemma bytes_eqb_sym a b : bytes_eqb a b = bytes_eqb b a.
Proof.
  destruct (bytes_eqb a b) eqn:E; destruct (bytes_eqb b a) eqn:F; try reflexivity.
  - apply bytes_eqb_eq in E. subst. rewrite bytes_eqb_refl in F. congruence.
  - apply bytes_eqb_eq in F. subst. rewrite bytes_eqb_refl in E. congruence.
Qed.

Lemma bytes_eq_dec (a b : bytes) : {a = b} + {a <> b}.
Proof.
  destruct (bytes_eqb a b) eqn:E.
  - left. apply bytes_eqb_eq. exact E.
  - right. apply bytes_eqb_neq. exact E.
Qed.

(** bytes_ltb is a strict total order. *)
Lemma bytes_ltb_irrefl a : bytes_ltb a a = false.
Proof. induction a as [|x a IH]; [reflexivity|]. cbn. rewrite IH. lia. Qed.

Lemma bytes_ltb_trans a b c : bytes_ltb a b = true -> bytes_ltb b c = true -> bytes_ltb a c = true.
Proof.
  revert b c; induction a as [|x a IH]; intros [|y b] [|z c]; cbn; try congruence; try discriminate.
  rewrite !orb_true_iff, !andb_true_iff.
  intros [H1|[H1 H1']] [H2|[H2 H2']].
  - left. lia.
  - left. lia.
  - left. lia.
  - right. split; [lia|]. eapply IH; eauto.
Qed.

Lemma bytes_ltb_total a b : bytes_ltb a b = true \/ a = b \/ bytes_ltb b a = true.
Proof.
  revert b; induction a as [|x a IH]; intros [|y b]; cbn; auto.
  destruct (Z.lt_trichotomy (b2z x) (b2z y)) as [H|[H|H]].
  - left. apply Z.ltb_lt in H. rewrite H. reflexivity.
  - apply b2z_inj in H. subst y. destruct (IH b) as [H|[H|H]].
    + left. rewrite H. lia.
    + subst; auto.
    + right; right. rewrite H. lia.
  - right; right. apply Z.ltb_lt in H. rewrite H. reflexivity.
Qed.

Lemma bytes_ltb_asym a b : bytes_ltb a b = true -> bytes_ltb b a = false.
Proof.
  intros H. destruct (bytes_ltb b a) eqn:E; [|reflexivity].
  pose proof (bytes_ltb_trans _ _ _ H E) as K. rewrite bytes_ltb_irrefl in K. discriminate.
Qed.
Lemma bytes_ltb_neq a b : bytes_ltb a b = true -> a <> b.
Proof. intros H ->. rewrite bytes_ltb_irrefl in H. discriminate. Qed.
Lemma bytes_ltb_nil a : bytes_ltb [] a = true <-> a <> [].
Proof. destruct a; cbn; split; congruence. Qed.
Lemma bytes_ltb_nil_r a : bytes_ltb a [] = false.
Proof. destruct a; reflexivity. Qed.
Lemma bytes_ltb_trichotomy a b : bytes_ltb a b = false -> a = b \/ bytes_ltb b a = true.
Proof. intros H. destruct (bytes_ltb_total a b) as [K|K]; [congruence|exact K]. Qed.

(** Words. *)
Lemma get_put_u32 z : match put_u32 z with
  | [a; b; c; d] => get_u32 a b c d = z mod 4294967296 | _ => False end.
Proof.
  unfold put_u32, get_u32. rewrite !b2z_z2b. lia.
Qed.
Lemma get_put_u16 z : match put_u16 z with
  | [a; b] => get_u16 a b = z mod 65536 | _ => False end.
Proof. unfold put_u16, get_u16. rewrite !b2z_z2b. lia. Qed.
Lemma get_u32_range a b c d : 0 <= get_u32 a b c d < 4294967296.
Proof. unfold get_u32. pose proof (b2z_range a); pose proof (b2z_range b); pose proof (b2z_range c); pose proof (b2z_range d). lia. Qed.
Lemma get_u16_range a b : 0 <= get_u16 a b < 65536.
Proof. unfold get_u16. pose proof (b2z_range a); pose proof (b2z_range b). lia. Qed.
Lemma put_get_u32 a b c d : put_u32 (get_u32 a b c d) = [a; b; c; d].
Proof.
  pose proof (get_u32_range a b c d) as H. unfold put_u32. rewrite (Z.mod_small _ 4294967296) by lia.
  pose proof (b2z_range a); pose proof (b2z_range b); pose proof (b2z_range c); pose proof (b2z_range d).
  unfold get_u32 in *.
  repeat match goal with |- _ :: _ = _ :: _ => f_equal end; try reflexivity;
    apply b2z_inj; rewrite b2z_z2b; lia.
Qed.
Lemma put_get_u16 a b : put_u16 (get_u16 a b) = [a; b].
Proof.
  pose proof (get_u16_range a b) as H. unfold put_u16. rewrite (Z.mod_small _ 65536) by lia.
  pose proof (b2z_range a); pose proof (b2z_range b). unfold get_u16 in *.
  repeat match goal with |- _ :: _ = _ :: _ => f_equal end; try reflexivity;
    apply b2z_inj; rewrite b2z_z2b; lia.
Qed.
Lemma put_u32_length z : List.length (put_u32 z) = 4%nat.
Proof. reflexivity. Qed.

Lemma zlen_nonneg {A} (l : list A) : 0 <= zlen l.
Proof. unfold zlen. lia. Qed.
Lemma zlen_app {A} (a b : list A) : zlen (a ++ b) = zlen a + zlen b.
Proof. unfold zlen. rewrite app_length. lia. Qed.
Lemma zlen_cons {A} (x : A) l : zlen (x :: l) = 1 + zlen l.
Proof. unfold zlen. cbn [List.length]. lia. Qed.
Lemma zlen_nil {A} : zlen (@nil A) = 0.
Proof. reflexivity. Qed.

Lemma list_set_length {A} n (x : A) l : List.length (list_set n x l) = List.length l.
Proof. revert n; induction l as [|y l IH]; intros [|n]; cbn; auto. Qed.
Lemma list_set_nth_eq {A} n (x : A) l : (n < List.length l)%nat -> nth_error (list_set n x l) n = Some x.
Proof. revert n; induction l as [|y l IH]; intros [|n] H; cbn in *; try lia; auto. apply IH. lia. Qed.
Lemma list_set_nth_neq {A} n m (x : A) l : n <> m -> nth_error (list_set n x l) m = nth_error l m.
Proof.
  revert n m; induction l as [|y l IH]; intros [|n] [|m] H; cbn; auto; try congruence.
Qed.
Lemma list_set_same {A} n (x : A) l : nth_error l n = Some x -> list_set n x l = l.
Proof.
  revert n; induction l as [|y l IH]; intros [|n] H; cbn in *; try congruence. f_equal. auto.
Qed.
Lemma list_set_set {A} n (x y : A) l : list_set n x (list_set n y l) = list_set n x l.
Proof. revert n; induction l as [|z l IH]; intros [|n]; cbn; congruence. Qed.

Lemma wrap_s_small bits z : 0 < bits -> - 2 ^ (bits - 1) <= z < 2 ^ (bits - 1) -> wrap_s bits z = z.
Proof.
  intros Hb H. unfold wrap_s.
  assert (2 ^ bits = 2 * 2 ^ (bits - 1)) as E by (rewrite <- Z.pow_succ_r by lia; f_equal; lia).
  rewrite E. rewrite Z.mod_small by lia. lia.
Qed.
Lemma wrap_u_small bits z : 0 <= z < 2 ^ bits -> wrap_u bits z = z.
Proof. intros H. unfold wrap_u. apply Z.mod_small. exact H. Qed.
Lemma wrap_s_range bits z : 0 < bits -> - 2 ^ (bits - 1) <= wrap_s bits z < 2 ^ (bits - 1).
Proof.
  intros Hb. unfold wrap_s.
  assert (2 ^ bits = 2 * 2 ^ (bits - 1)) as E by (rewrite <- Z.pow_succ_r by lia; f_equal; lia).
  assert (0 < 2 ^ (bits - 1)) by (apply Z.pow_pos_nonneg; lia).
  pose proof (Z.mod_pos_bound (z + 2 ^ (bits - 1)) (2 ^ bits)). lia.
Qed.

Lemma firstn_zlen_app {A} (a b : list A) : firstn (Z.to_nat (zlen a)) (a ++ b) = a.
Proof. unfold zlen. rewrite Nat2Z.id, firstn_app, firstn_all, Nat.sub_diag. cbn. apply app_nil_r. Qed.
Lemma skipn_zlen_app {A} (a b : list A) : skipn (Z.to_nat (zlen a)) (a ++ b) = b.
Proof. unfold zlen. rewrite Nat2Z.id, skipn_app, skipn_all, Nat.sub_diag. reflexivity. Qed.
