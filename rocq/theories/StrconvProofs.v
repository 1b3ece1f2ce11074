(** Lemmas about Strconv: format and parse are inverse on canonical decimals. *)
From Verif Require Import GoBase GoBaseProofs Strconv BencSpec.
From Coq Require Import Strings.Byte ZifyBool ZifyNat ZifyN Decimal DecimalFacts DecimalN DecimalPos.
Ltac Zify.zify_post_hook ::= Z.div_mod_to_equations.

Lemma bytes_uint_of d : bytes_uint (uint_bytes d) = Some d.
Proof. induction d; cbn; try rewrite IHd; reflexivity. Qed.

Lemma uint_bytes_of s d : bytes_uint s = Some d -> uint_bytes d = s.
Proof.
  revert d; induction s as [|c s IH]; intros d H; cbn in H.
  - injection H as <-. reflexivity.
  - destruct (bytes_uint s) as [d'|]; [|discriminate]. specialize (IH _ eq_refl).
    destruct c; try discriminate; injection H as <-; cbn; rewrite IH; reflexivity.
Qed.

Lemma uint_bytes_digits d : forallb is_digit (uint_bytes d) = true.
Proof. induction d; cbn [uint_bytes forallb]; try rewrite IHd; reflexivity. Qed.

Lemma bytes_uint_digits s : forallb is_digit s = true <-> exists d, bytes_uint s = Some d.
Proof.
  split.
  - induction s as [|c s IH]; cbn; intros H; [eexists; reflexivity|].
    apply andb_true_iff in H as [Hc Hs]. destruct (IH Hs) as [d Hd]. rewrite Hd.
    destruct c; try (vm_compute in Hc; discriminate); eexists; reflexivity.
  - intros [d Hd]. rewrite <- (uint_bytes_of _ _ Hd). apply uint_bytes_digits.
Qed.

Lemma of_uint_acc_val d acc :
  Z.of_N (N.pos (Pos.of_uint_acc d acc)) =
  fold_left (fun a c => 10 * a + (b2z c - 48)) (uint_bytes d) (Z.of_N (N.pos acc)).
Proof.
  revert acc; induction d; intros acc; cbn [Pos.of_uint_acc uint_bytes fold_left]; auto;
    rewrite IHd; f_equal;
    match goal with |- context [b2z ?c] => let v := eval vm_compute in (b2z c) in change (b2z c) with v end; lia.
Qed.

Lemma of_uint_val d : Z.of_N (N.of_uint d) = digits_val (uint_bytes d).
Proof.
  unfold digits_val. induction d; cbn [N.of_uint Pos.of_uint uint_bytes fold_left] in *;
    try reflexivity; try (rewrite of_uint_acc_val; reflexivity).
  exact IHd.
Qed.

Lemma parse_N_Some s n :
  parse_N s = Some n <-> s <> [] /\ forallb is_digit s = true /\ Z.of_N n = digits_val s.
Proof.
  unfold parse_N. destruct s as [|c s]; [split; [discriminate|intros [H _]; congruence]|].
  split.
  - destruct (bytes_uint (c :: s)) as [d|] eqn:E; [|discriminate]. intros [= <-].
    split; [congruence|]. split; [apply bytes_uint_digits; eauto|].
    rewrite of_uint_val, (uint_bytes_of _ _ E). reflexivity.
  - intros (_ & Hd & Hv). apply bytes_uint_digits in Hd as [d Hd]. rewrite Hd. f_equal.
    apply N2Z.inj. rewrite Hv, of_uint_val, (uint_bytes_of _ _ Hd). reflexivity.
Qed.

Lemma canon_nat_digits s : canon_nat s = true -> forallb is_digit s = true /\ s <> [].
Proof.
  destruct s as [|c [|c' s]]; cbn [canon_nat]; intros H; [discriminate| |].
  - split; [cbn; rewrite H; reflexivity|congruence].
  - apply andb_true_iff in H as [H Hs]. apply andb_true_iff in H as [_ Hc].
    split; [|congruence]. cbn [forallb] in *. rewrite Hc. exact Hs.
Qed.

Lemma format_N_nonnil n : format_N n <> [].
Proof.
  unfold format_N. destruct n as [|p]; [discriminate|]. cbn.
  intros H. apply (f_equal bytes_uint) in H. rewrite bytes_uint_of in H. injection H as H.
  apply (DecimalPos.Unsigned.to_uint_nonnil p). exact H.
Qed.

Lemma format_N_digits n : forallb is_digit (format_N n) = true.
Proof. apply uint_bytes_digits. Qed.

Lemma parse_format_N n : parse_N (format_N n) = Some n.
Proof.
  unfold parse_N. pose proof (format_N_nonnil n) as H. destruct (format_N n) as [|c s] eqn:E; [congruence|].
  rewrite <- E. unfold format_N. rewrite bytes_uint_of, DecimalN.Unsigned.of_to. reflexivity.
Qed.

Lemma unorm_canon s d : bytes_uint s = Some d -> canon_nat s = true -> unorm d = d.
Proof.
  intros H C. apply uint_bytes_of in H. subst s.
  destruct d; cbn in *; try discriminate; try reflexivity.
  destruct d; cbn in C; try discriminate; reflexivity.
Qed.

Lemma canon_unorm d : canon_nat (uint_bytes (unorm d)) = true.
Proof.
  assert (forall c d, c <> "0"%byte -> is_digit c = true -> canon_nat (c :: uint_bytes d) = true) as K.
  { intros c d0 Hc Hd. unfold canon_nat. destruct (uint_bytes d0) eqn:E; [exact Hd|].
    rewrite <- E, uint_bytes_digits, Hd. apply beqb_neq in Hc. rewrite Hc. reflexivity. }
  unfold unorm. induction d; cbn [nzhead]; try reflexivity; auto; cbn [uint_bytes]; apply K; try reflexivity; congruence.
Qed.

Lemma format_N_canon n : canon_nat (format_N n) = true.
Proof.
  unfold format_N. rewrite <- (DecimalN.Unsigned.of_to n) at 1. rewrite DecimalN.Unsigned.to_of. apply canon_unorm.
Qed.

Lemma canon_parse_format s n : canon_nat s = true -> parse_N s = Some n -> s = format_N n.
Proof.
  intros C H. unfold parse_N in H. destruct s as [|c s]; [discriminate|].
  destruct (bytes_uint (c :: s)) as [d|] eqn:E; [|discriminate]. injection H as <-.
  unfold format_N. rewrite DecimalN.Unsigned.to_of, (unorm_canon _ _ E C). symmetry. apply uint_bytes_of. exact E.
Qed.

Lemma format_N_val n : digits_val (format_N n) = Z.of_N n.
Proof. destruct (proj1 (parse_N_Some _ _) (parse_format_N n)) as (_ & _ & H). auto. Qed.

Lemma is_digit_cases c : is_digit c = true ->
  In c ["0"%byte;"1"%byte;"2"%byte;"3"%byte;"4"%byte;"5"%byte;"6"%byte;"7"%byte;"8"%byte;"9"%byte].
Proof. destruct c; intros H; try (vm_compute in H; discriminate); cbn; tauto. Qed.

Lemma digit_not c c' : is_digit c = true -> is_digit c' = false -> beqb c c' = false.
Proof. intros H H'. apply beqb_neq. intros ->. congruence. Qed.

Lemma parse_int_format z : is_int64 z = true -> parse_int (format_Z z) = Some z.
Proof.
  intros Hz. unfold format_Z, parse_int. destruct (z <? 0) eqn:E.
  - cbn. rewrite parse_format_N.
    replace (- Z.of_N (Z.to_N (- z))) with z by lia. rewrite Hz. reflexivity.
  - pose proof (format_N_nonnil (Z.to_N z)) as Hn. pose proof (format_N_digits (Z.to_N z)) as Hd.
    pose proof (parse_format_N (Z.to_N z)) as Hp.
    destruct (format_N (Z.to_N z)) as [|c s]; [congruence|].
    cbn in Hd. apply andb_true_iff in Hd as [Hc _].
    rewrite !(digit_not c) by (auto || reflexivity). cbn [orb]. rewrite Hp.
    replace (Z.of_N (Z.to_N z)) with z by lia. rewrite Hz. reflexivity.
Qed.

Lemma parse_uint_format z : 0 <= z <= max_uint64 -> parse_uint (format_Z z) = Some z.
Proof.
  intros Hz. unfold format_Z, parse_uint. replace (z <? 0) with false by lia.
  rewrite parse_format_N. replace (Z.of_N (Z.to_N z)) with z by lia.
  replace (z <=? max_uint64) with true by lia. reflexivity.
Qed.

Lemma format_Z_nonneg z : 0 <= z -> format_Z z = format_N (Z.to_N z).
Proof. intros. unfold format_Z. replace (z <? 0) with false by lia. reflexivity. Qed.
