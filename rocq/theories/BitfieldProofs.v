(** Proofs about Bitfield.v. *)
From Verif Require Import GoBase GoBaseProofs Bitfield BitfieldSpec.
From Coq Require Import ZifyBool ZifyNat ZifyN Sorting.Sorted.
Ltac Zify.zify_post_hook ::= Z.to_euclidean_division_equations.

Definition all_bytes : list byte :=
  map (fun n => z2b (Z.of_nat n)) (seq 0 256).
Lemma all_bytes_in b : In b all_bytes.
Proof.
  unfold all_bytes. apply in_map_iff. exists (Z.to_nat (b2z b)). pose proof (b2z_range b).
  rewrite Z2Nat.id by lia. split; [apply z2b_b2z|]. apply in_seq. lia.
Qed.
Lemma byte_sweep (P : byte -> bool) : forallb P all_bytes = true -> forall b, P b = true.
Proof. intros H b. rewrite forallb_forall in H. apply H, all_bytes_in. Qed.

Definition all_j : list Z := [0;1;2;3;4;5;6;7].
Lemma all_j_in j : 0 <= j < 8 -> In j all_j.
Proof. intros H. assert (j=0\/j=1\/j=2\/j=3\/j=4\/j=5\/j=6\/j=7) by lia. cbn. intuition. Qed.

Lemma mask_bit x j : 0 <= j < 8 -> negb (Z.land (b2z x) (bit_mask j) =? 0) = Z.testbit (b2z x) j.
Proof.
  intros Hj. apply eqb_prop.
  pose proof (byte_sweep (fun x => forallb (fun j => Bool.eqb (negb (Z.land (b2z x) (bit_mask j) =? 0)) (Z.testbit (b2z x) j)) all_j)) as K.
  assert (forallb (fun j => Bool.eqb (negb (Z.land (b2z x) (bit_mask j) =? 0)) (Z.testbit (b2z x) j)) all_j = true) as K'.
  { apply K. vm_compute. reflexivity. }
  rewrite forallb_forall in K'. apply K', all_j_in, Hj.
Qed.

Lemma mask_high bj : 8 <= bj <= 14 -> bit_mask bj = 0.
Proof. intros H. assert (bj=8\/bj=9\/bj=10\/bj=11\/bj=12\/bj=13\/bj=14) as K by lia.
  repeat destruct K as [->|K]; subst; reflexivity. Qed.

Lemma add_bit x j k : 0 <= j < 8 -> 0 <= k < 8 ->
  Z.testbit (b2z (z2b (Z.lor (b2z x) (bit_mask j)))) k = Z.testbit (b2z x) k || (j =? k).
Proof.
  intros Hj Hk. apply eqb_prop.
  pose (P := fun x => forallb (fun j => forallb (fun k => Bool.eqb (Z.testbit (b2z (z2b (Z.lor (b2z x) (bit_mask j)))) k) (Z.testbit (b2z x) k || (j =? k))) all_j) all_j).
  assert (P x = true) as K by (apply byte_sweep; vm_compute; reflexivity).
  unfold P in K. rewrite forallb_forall in K. specialize (K j (all_j_in j Hj)).
  rewrite forallb_forall in K. exact (K k (all_j_in k Hk)).
Qed.

Lemma diff_bit x y k : 0 <= k < 8 ->
  Z.testbit (b2z (z2b (b2z x - Z.land (b2z x) (b2z y)))) k = Z.testbit (b2z x) k && negb (Z.testbit (b2z y) k).
Proof.
  intros Hk.
  assert (b2z x - Z.land (b2z x) (b2z y) = Z.ldiff (b2z x) (b2z y)) as E.
  { rewrite (Z.sub_nocarry_ldiff (b2z x) (Z.land (b2z x) (b2z y))).
    - apply Z.bits_inj'. intros n Hn. rewrite !Z.ldiff_spec, Z.land_spec.
      destruct (Z.testbit (b2z x) n), (Z.testbit (b2z y) n); reflexivity.
    - apply Z.bits_inj'. intros n Hn. rewrite Z.ldiff_spec, Z.land_spec, Z.bits_0.
      destruct (Z.testbit (b2z x) n), (Z.testbit (b2z y) n); reflexivity. }
  rewrite b2z_z2b, E. rewrite Z.mod_small.
  - apply Z.ldiff_spec.
  - rewrite <- E. pose proof (b2z_range x).
    assert (0 <= Z.land (b2z x) (b2z y)) by (apply Z.land_nonneg; lia).
    assert (0 <= b2z x - Z.land (b2z x) (b2z y)).
    { rewrite E. apply Z.ldiff_nonneg. lia. }
    lia.
Qed.

Lemma bit_pos i : 0 <= 7 - i mod 8 < 8.
Proof. lia. Qed.
Lemma idx_split i j : i / 8 = j / 8 -> 7 - i mod 8 = 7 - j mod 8 -> i = j.
Proof. lia. Qed.

Lemma byte_at_nonneg b i : 0 <= i -> byte_at b i = nth_error b (Z.to_nat i).
Proof. intros H. unfold byte_at. replace (i <? 0) with false by lia. reflexivity. Qed.

Lemma bf_has_spec b i : 0 <= i < 8 * zlen b -> exists r, bf_has b i = Some r /\ (r = true <-> member b i).
Proof.
  intros H. unfold bf_has. rewrite Z.quot_div_nonneg, Z.rem_mod_nonneg by lia.
  rewrite byte_at_nonneg by lia.
  destruct (nth_error b (Z.to_nat (i / 8))) as [x|] eqn:E.
  - eexists; split; [reflexivity|]. rewrite mask_bit by lia. unfold member. split.
    + intros K. split; [lia|]. eauto.
    + intros [_ [x' [E' K]]]. rewrite E in E'. injection E' as <-. exact K.
  - exfalso. apply nth_error_None in E. unfold zlen in *. lia.
Qed.

Lemma member_range b i : member b i -> 0 <= i < 8 * zlen b.
Proof.
  intros [H [x [E _]]]. assert (Z.to_nat (i / 8) < List.length b)%nat by (apply nth_error_Some; congruence).
  unfold zlen. lia.
Qed.

Lemma bf_add_spec b i : 0 <= i < 8 * zlen b ->
  exists b', bf_add b i = Some b' /\ zlen b' = zlen b /\ forall j, member b' j <-> j = i \/ member b j.
Proof.
  intros H. unfold bf_add. rewrite Z.quot_div_nonneg, Z.rem_mod_nonneg by lia.
  rewrite byte_at_nonneg by lia.
  destruct (nth_error b (Z.to_nat (i / 8))) as [x|] eqn:E.
  2:{ exfalso. apply nth_error_None in E. unfold zlen in *. lia. }
  eexists; split; [reflexivity|]. split; [unfold zlen; rewrite list_set_length; reflexivity|].
  assert (Z.to_nat (i / 8) < List.length b)%nat as Hl by (apply nth_error_Some; congruence).
  intros j. unfold member. destruct (Z.eq_dec (i / 8) (j / 8)) as [D|D].
  - split.
    + intros [Hj [y [Ey K]]]. rewrite <- D, list_set_nth_eq in Ey by exact Hl. injection Ey as <-.
      rewrite add_bit in K by apply bit_pos. apply orb_true_iff in K as [K|K].
      * right. split; [lia|]. exists x. rewrite <- D. auto.
      * left. apply Z.eqb_eq in K. symmetry. apply idx_split; assumption.
    + intros [->|[Hj [y [Ey K]]]].
      * split; [lia|]. rewrite list_set_nth_eq by exact Hl. eexists. split; [reflexivity|].
        rewrite add_bit by apply bit_pos. apply orb_true_iff. right. apply Z.eqb_refl.
      * split; [exact Hj|]. rewrite <- D. rewrite list_set_nth_eq by exact Hl. eexists. split; [reflexivity|].
        rewrite add_bit by apply bit_pos. apply orb_true_iff. left. rewrite <- D, E in Ey. congruence.
  - split.
    + intros [Hj [y [Ey K]]]. rewrite list_set_nth_neq in Ey by (clear K Ey; lia). right. eauto.
    + intros [->|[Hj [y [Ey K]]]]; [congruence|]. split; [lia|]. rewrite list_set_nth_neq by (clear K Ey; lia). eauto.
Qed.

Lemma bf_new_spec n : 0 <= n -> exists b, bf_new n = Some b /\ n <= 8 * zlen b < n + 8 /\ forall i, ~ member b i.
Proof.
  intros H. unfold bf_new. rewrite Z.quot_div_nonneg, Z.rem_mod_nonneg by lia.
  set (sz := if negb (n mod 8 =? 0) then n / 8 + 1 else n / 8).
  assert (0 <= sz /\ n <= 8 * sz < n + 8) as [K1 K2] by (unfold sz; destruct (n mod 8 =? 0) eqn:E; cbn [negb]; lia).
  replace (sz <? 0) with false by lia. eexists; split; [reflexivity|]. split.
  - unfold zlen. rewrite repeat_length. lia.
  - intros i [Hi [x [Ex K]]]. apply nth_error_In, repeat_spec in Ex. subst x.
    change (b2z x00) with 0 in K. rewrite Z.bits_0 in K. discriminate.
Qed.

(** Index domain. *)
Lemma bf_has_domain b i : bf_has b i = None <-> (i <= -8 \/ i >= 8 * zlen b \/ (-8 < i < 0 /\ b = [])).
Proof.
  unfold bf_has, byte_at. pose proof (zlen_nonneg b) as Hl. destruct (Z.quot i 8 <? 0) eqn:E; [split; [lia|auto]|].
  destruct (nth_error b (Z.to_nat (Z.quot i 8))) as [x|] eqn:F.
  - split; [discriminate|]. intros K. exfalso.
    assert (Z.to_nat (Z.quot i 8) < List.length b)%nat by (apply nth_error_Some; congruence).
    unfold zlen in *. destruct K as [K|[K|[K ->]]]; try lia. cbn in *. lia.
  - split; [intros _|reflexivity]. apply nth_error_None in F. unfold zlen.
    destruct (Z_lt_le_dec i 0); [|right; left; lia]. destruct (Z_le_gt_dec i (-8)); [left; lia|]. destruct b; [|exfalso; cbn [List.length] in F; lia].
    right; right. split; [lia|reflexivity].
Qed.
Lemma bf_add_domain b i : bf_add b i = None <-> bf_has b i = None.
Proof. unfold bf_add, bf_has. destruct (byte_at b (Z.quot i 8)); split; congruence. Qed.

Lemma bf_negative b i : -8 < i < 0 -> b <> [] -> bf_has b i = Some false /\ bf_add b i = Some b.
Proof.
  intros H Hb. unfold bf_has, bf_add, byte_at.
  replace (Z.quot i 8) with 0 by lia. cbn [Z.ltb Z.compare Z.to_nat].
  assert (8 <= 7 - Z.rem i 8 <= 14) by lia. rewrite mask_high by lia.
  destruct b as [|x b]; [congruence|]. cbn [nth_error]. rewrite Z.land_0_r, Z.lor_0_r, z2b_b2z. auto.
Qed.

(** Items. *)
Lemma byte_items_in bi x i : In i (byte_items bi x) <-> 8 * bi <= i < 8 * bi + 8 /\ Z.testbit (b2z x) (7 - (i - 8 * bi)) = true.
Proof.
  unfold byte_items. rewrite in_flat_map. split.
  - intros [j [Hj Hi]]. assert (0 <= j < 8) by (cbn in Hj; lia).
    rewrite mask_bit in Hi by lia. destruct (Z.testbit (b2z x) (7 - j)) eqn:E; [|destruct Hi].
    destruct Hi as [<-|[]]. split; [lia|]. replace (7 - (bi * 8 + j - 8 * bi)) with (7 - j) by lia. exact E.
  - intros [H E]. exists (i - 8 * bi). split; [apply all_j_in; lia|].
    rewrite mask_bit by lia. rewrite E. left. lia.
Qed.
Lemma byte_items_sorted bi x : StronglySorted Z.lt (byte_items bi x).
Proof.
  unfold byte_items.
  assert (forall l, StronglySorted Z.lt l -> StronglySorted Z.lt
     (flat_map (fun j => if negb (Z.land (b2z x) (bit_mask (7 - j)) =? 0) then [bi * 8 + j] else []) l)) as K.
  { intros l H. induction H as [|j l H IH F]; cbn; [constructor|].
    destruct (negb _); cbn; [|exact IH]. constructor; [exact IH|].
    rewrite Forall_forall in *. intros z Hz. apply in_flat_map in Hz as [j' [Hj' Hz]].
    specialize (F _ Hj'). destruct (negb _); [|destruct Hz]. destruct Hz as [<-|[]]. lia. }
  apply K. repeat (constructor; [|repeat (constructor; [lia|]); constructor]). constructor.
Qed.
Lemma items_from_in bi b i : In i (items_from bi b) <->
  8 * bi <= i /\ exists x, nth_error b (Z.to_nat (i / 8 - bi)) = Some x /\ Z.testbit (b2z x) (7 - i mod 8) = true.
Proof.
  revert bi; induction b as [|x b IH]; intros bi; cbn [items_from].
  - split; [intros []|]. intros [_ [x [E _]]]. destruct (Z.to_nat (i / 8 - bi)); discriminate.
  - rewrite in_app_iff, byte_items_in, IH. split.
    + intros [[H E]|[H [y [Ey E]]]].
      * split; [lia|]. exists x. replace (Z.to_nat (i / 8 - bi)) with O by lia. split; [reflexivity|].
        replace (i mod 8) with (i - 8 * bi) by lia. exact E.
      * split; [lia|]. exists y. replace (Z.to_nat (i / 8 - bi)) with (S (Z.to_nat (i / 8 - (bi + 1)))) by lia. auto.
    + intros [H [y [Ey E]]]. destruct (Z.eq_dec (i / 8) bi) as [D|D].
      * left. replace (Z.to_nat (i / 8 - bi)) with O in Ey by lia. injection Ey as <-. split; [lia|].
        replace (i - 8 * bi) with (i mod 8) by lia. exact E.
      * right. split; [lia|]. exists y. replace (Z.to_nat (i / 8 - bi)) with (S (Z.to_nat (i / 8 - (bi + 1)))) in Ey by lia. auto.
Qed.
Lemma sorted_app l1 l2 m : StronglySorted Z.lt l1 -> StronglySorted Z.lt l2 ->
  Forall (fun x => x < m) l1 -> Forall (fun x => m <= x) l2 -> StronglySorted Z.lt (l1 ++ l2).
Proof.
  intros H1 H2 F1 F2. induction H1 as [|x l1 H1 IH F]; cbn; [exact H2|].
  inversion F1; subst. constructor; [auto|]. apply Forall_app. split; [exact F|].
  eapply Forall_impl; [|exact F2]. cbn. intros; lia.
Qed.
Lemma items_from_sorted bi b : StronglySorted Z.lt (items_from bi b).
Proof.
  revert bi; induction b as [|x b IH]; intros bi; cbn; [constructor|].
  apply sorted_app with (m := 8 * bi + 8).
  - apply byte_items_sorted.
  - apply IH.
  - apply Forall_forall. intros i Hi. apply byte_items_in in Hi. lia.
  - apply Forall_forall. intros i Hi. apply items_from_in in Hi. lia.
Qed.
Lemma bf_items_spec b : StronglySorted Z.lt (bf_items b) /\ forall i, In i (bf_items b) <-> member b i.
Proof.
  split; [apply items_from_sorted|]. intros i. unfold bf_items, member. rewrite items_from_in, Z.sub_0_r.
  replace (8 * 0 <= i) with (0 <= i) by reflexivity. reflexivity.
Qed.

(** Difference. *)
Lemma diff_length b a : zlen (bf_difference b a) = zlen b.
Proof. unfold zlen. f_equal. revert a; induction b as [|x b IH]; intros [|y a]; cbn; auto. Qed.
Lemma diff_nth b a n : nth_error (bf_difference b a) n =
  match nth_error b n, nth_error a n with
  | Some x, Some y => Some (z2b (b2z x - Z.land (b2z x) (b2z y)))
  | Some x, None => Some x
  | None, _ => None
  end.
Proof.
  revert a n; induction b as [|x b IH]; intros [|y a] [|n]; cbn; auto.
  rewrite IH. destruct (nth_error b n), n; reflexivity.
Qed.
Lemma diff_member b a i : member (bf_difference b a) i <-> member b i /\ ~ member a i.
Proof.
  unfold member. rewrite diff_nth. split.
  - intros [H [x [E K]]]. destruct (nth_error b (Z.to_nat (i / 8))) as [y|]; [|discriminate].
    destruct (nth_error a (Z.to_nat (i / 8))) as [z|]; injection E as <-.
    + rewrite diff_bit in K by apply bit_pos. apply andb_true_iff in K as [K1 K2].
      split; [eauto|]. intros [_ [z' [[= <-] K3]]]. rewrite K3 in K2. discriminate.
    + split; [eauto|]. intros [_ [z' [[=] _]]].
  - intros [[H [x [E K]]] N]. split; [lia|]. rewrite E.
    destruct (nth_error a (Z.to_nat (i / 8))) as [z|]; eexists; (split; [reflexivity|]); auto.
    rewrite diff_bit by apply bit_pos. rewrite K. cbn [andb]. destruct (Z.testbit (b2z z) (7 - i mod 8)) eqn:Ez; [|reflexivity].
    exfalso. apply N. eauto.
Qed.

(** A history of Adds. *)
Fixpoint bf_adds (b : bytes) (is : list Z) : option bytes :=
  match is with
  | [] => Some b
  | i :: is' => match bf_add b i with Some b' => bf_adds b' is' | None => None end
  end.
Lemma bf_adds_spec n is : 0 <= n -> Forall (fun i => 0 <= i < n) is ->
  exists b0 b, bf_new n = Some b0 /\ bf_adds b0 is = Some b /\
    forall j, 0 <= j < n -> exists r, bf_has b j = Some r /\ (r = true <-> In j is).
Proof.
  intros Hn F. destruct (bf_new_spec n Hn) as (b0 & E0 & L0 & M0). exists b0.
  assert (forall is b, n <= 8 * zlen b -> Forall (fun i => 0 <= i < n) is ->
     exists b', bf_adds b is = Some b' /\ zlen b' = zlen b /\ forall j, member b' j <-> In j is \/ member b j) as K.
  { clear. induction is as [|i is IH]; intros b L F; cbn [bf_adds].
    - exists b. cbn. intuition.
    - inversion F; subst. destruct (bf_add_spec b i) as (b' & E & L' & M); [lia|]. rewrite E.
      destruct (IH b') as (b'' & E' & L'' & M'); [lia|assumption|]. exists b''.
      split; [exact E'|]. split; [lia|]. intros j. rewrite M', M. cbn. intuition. }
  destruct (K is b0) as (b & E & L & M); [lia|exact F|]. exists b. split; [exact E0|]. split; [exact E|].
  intros j Hj. destruct (bf_has_spec b j) as (r & Er & Hr); [lia|]. exists r. split; [exact Er|].
  rewrite Hr, M. specialize (M0 j). tauto.
Qed.

Lemma bf_add_has_spec b i : 0 <= i < 8 * zlen b ->
  exists b', bf_add b i = Some b' /\ zlen b' = zlen b /\
    forall j, 0 <= j < 8 * zlen b -> exists r r', bf_has b j = Some r /\ bf_has b' j = Some r' /\
      (r' = true <-> j = i \/ r = true).
Proof.
  intros H. destruct (bf_add_spec b i H) as (b' & E & L & M). exists b'. split; [exact E|]. split; [exact L|].
  intros j Hj. destruct (bf_has_spec b j Hj) as (r & Er & Hr).
  destruct (bf_has_spec b' j) as (r' & Er' & Hr'); [lia|].
  exists r, r'. split; [exact Er|]. split; [exact Er'|]. rewrite Hr', M, Hr. tauto.
Qed.
Lemma diff_spec b a : zlen (bf_difference b a) = zlen b /\
    forall i, member (bf_difference b a) i <-> member b i /\ ~ member a i.
Proof. split; [apply diff_length|intros; apply diff_member]. Qed.
Lemma bf_domain b i : (bf_has b i = None <-> (i <= -8 \/ i >= 8 * zlen b \/ (-8 < i < 0 /\ b = []))) /\
              (bf_add b i = None <-> (i <= -8 \/ i >= 8 * zlen b \/ (-8 < i < 0 /\ b = []))).
Proof. rewrite bf_add_domain, bf_has_domain. tauto. Qed.
Lemma bf_negative_no_panic : exists b i, ~ (0 <= i < 8 * zlen b) /\ bf_has b i <> None /\ bf_add b i <> None.
Proof. exists [x00], (-1). split; [cbn; lia|]. split; vm_compute; congruence. Qed.
