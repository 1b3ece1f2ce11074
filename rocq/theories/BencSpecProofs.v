(** Lemmas about the bencode specification itself. *)
From Verif Require Import GoBase GoBaseProofs Strconv BencSpec StrconvProofs.
From Coq Require Import ZifyBool ZifyNat ZifyN Sorting.Sorted.

(** Induction over bval with the nested lists. *)
Lemma bval_ind' (P : bval -> Prop) :
  (forall z, P (BInt z)) -> (forall s, P (BStr s)) ->
  (forall l, Forall P l -> P (BList l)) ->
  (forall m, Forall (fun p => P (snd p)) m -> P (BDict m)) ->
  forall v, P v.
Proof.
  intros Hi Hs Hl Hd. fix IH 1. intros [z|s|l|m]; [apply Hi|apply Hs| |].
  - apply Hl. induction l; constructor; auto.
  - apply Hd. induction m; constructor; auto.
Qed.

Lemma go_int_parse z n : parse_int n = Some z <-> go_int z n.
Proof.
  unfold parse_int, go_int. split.
  - destruct n as [|c n']; [discriminate|].
    destruct (beqb c "-"%byte) eqn:Em.
    + apply beqb_eq in Em. subst c. cbn [orb].
      destruct (parse_N n') as [k|] eqn:E; [|discriminate].
      apply parse_N_Some in E as (Hn & Hd & Hv).
      destruct (is_int64 (- Z.of_N k)) eqn:R; [|discriminate]. intros [= <-].
      exists ["-"%byte], n'. unfold is_int64, min_int64, max_int64 in R. repeat split; auto; try lia.
      right. split; [reflexivity|]. lia.
    + cbn [orb]. destruct (beqb c "+"%byte) eqn:Ep.
      * apply beqb_eq in Ep. subst c.
        destruct (parse_N n') as [k|] eqn:E; [|discriminate].
        apply parse_N_Some in E as (Hn & Hd & Hv).
        destruct (is_int64 (Z.of_N k)) eqn:R; [|discriminate]. intros [= <-].
        exists ["+"%byte], n'. unfold is_int64, min_int64, max_int64 in R. repeat split; auto; try lia.
      * destruct (parse_N (c :: n')) as [k|] eqn:E; [|discriminate].
        apply parse_N_Some in E as (Hn & Hd & Hv).
        destruct (is_int64 (Z.of_N k)) eqn:R; [|discriminate]. intros [= <-].
        exists [], (c :: n'). unfold is_int64, min_int64, max_int64 in R. repeat split; auto; try lia.
  - intros (sg & ds & -> & Hn & Hd & Hs & Hr).
    assert (exists k, parse_N ds = Some k /\ Z.of_N k = digits_val ds) as (k & Ek & Vk).
    { apply bytes_uint_digits in Hd as Hd'. destruct Hd' as [d E].
      unfold parse_N. destruct ds as [|c ds]; [congruence|]. rewrite E. eexists; split; [reflexivity|].
      rewrite of_uint_val, (uint_bytes_of _ _ E). reflexivity. }
    assert (is_int64 z = true) as R by (unfold is_int64, min_int64, max_int64; lia).
    destruct Hs as [[[->| ->] Hz]|[-> Hz]].
    + cbn [app]. destruct ds as [|c ds]; [congruence|]. cbn in Hd. apply andb_true_iff in Hd as [Hc _].
      rewrite !(digit_not c) by (auto || reflexivity). cbn [orb]. rewrite Ek, Vk, <- Hz, R. reflexivity.
    + cbn [app]. change (beqb "+"%byte "-"%byte) with false. change (beqb "+"%byte "+"%byte) with true.
      cbn [orb]. rewrite Ek, Vk, <- Hz, R. reflexivity.
    + cbn [app]. change (beqb "-"%byte "-"%byte) with true. cbn [orb]. rewrite Ek, Vk, <- Hz, R. reflexivity.
Qed.

Lemma go_uint_parse z n : parse_uint n = Some z <-> go_uint z n.
Proof.
  unfold parse_uint, go_uint. split.
  - destruct (parse_N n) as [k|] eqn:E; [|discriminate]. apply parse_N_Some in E as (Hn & Hd & Hv).
    destruct (Z.of_N k <=? max_uint64) eqn:R; [|discriminate]. intros [= <-]. unfold max_uint64 in R.
    repeat split; auto. lia.
  - intros (Hn & Hd & Hz & Hr). apply bytes_uint_digits in Hd as Hd'. destruct Hd' as [d E].
    destruct n as [|c n]; [congruence|]. unfold parse_N. rewrite E.
    rewrite of_uint_val, (uint_bytes_of _ _ E), <- Hz.
    replace (z <=? max_uint64) with true by (unfold max_uint64; lia). reflexivity.
Qed.

Lemma go_int_inj z z' n : go_int z n -> go_int z' n -> z = z'.
Proof. intros H H'. apply go_int_parse in H, H'. congruence. Qed.

Lemma go_int_uint z z' n : go_int z n -> go_uint z' n -> z = z'.
Proof.
  intros (sg & ds & -> & Hn & Hd & Hs & Hr) (_ & Hd' & Hz' & _).
  rewrite forallb_app in Hd'. apply andb_true_iff in Hd' as [Hsg _].
  destruct Hs as [[[->| ->] Hz]|[-> Hz]]; try discriminate. cbn [app] in Hz'. congruence.
Qed.

(** Characters of number texts. *)
Definition num_char (c : byte) : bool := is_digit c || beqb c "+"%byte || beqb c "-"%byte.
Lemma go_int_chars z n : go_int z n -> forallb num_char n = true /\ n <> [].
Proof.
  intros (sg & ds & -> & Hn & Hd & Hs & Hr). split.
  - rewrite forallb_app. apply andb_true_iff. split.
    + destruct Hs as [[[->| ->] _]|[-> _]]; reflexivity.
    + rewrite forallb_forall in *. intros c Hc. unfold num_char. rewrite (Hd c Hc). reflexivity.
  - destruct sg; [exact Hn|discriminate].
Qed.
Lemma go_uint_chars z n : go_uint z n -> forallb num_char n = true /\ n <> [].
Proof.
  intros (Hn & Hd & _). split; [|exact Hn].
  rewrite forallb_forall in *. intros c Hc. unfold num_char. rewrite (Hd c Hc). reflexivity.
Qed.
Lemma num_char_not c n d : num_char d = false -> forallb num_char n = true -> In c n -> c <> d.
Proof. intros Hd Hn Hc ->. rewrite forallb_forall in Hn. rewrite (Hn _ Hc) in Hd. discriminate. Qed.

Lemma dec_text_format z n : dec_text z n <-> n = format_Z z.
Proof.
  unfold dec_text, format_Z. split.
  - intros [(Hz & Hc & Hv)|(Hz & n' & -> & Hc & Hv)].
    + replace (z <? 0) with false by lia. apply canon_parse_format; [exact Hc|].
      apply canon_nat_digits in Hc as [Hd Hn]. apply parse_N_Some. repeat split; auto. lia.
    + replace (z <? 0) with true by lia. f_equal. apply canon_parse_format; [exact Hc|].
      apply canon_nat_digits in Hc as [Hd Hn]. apply parse_N_Some. repeat split; auto. lia.
  - intros ->. destruct (z <? 0) eqn:E.
    + right. split; [lia|]. eexists; split; [reflexivity|]. split; [apply format_N_canon|].
      rewrite format_N_val. lia.
    + left. split; [lia|]. split; [apply format_N_canon|]. rewrite format_N_val. lia.
Qed.

Lemma dec_text_go_int z n : dec_text z n -> is_int64 z = true -> go_int z n.
Proof. intros H R. apply dec_text_format in H. subst. apply go_int_parse, parse_int_format, R. Qed.

Lemma canon_not_padded n : canon_nat n = true -> ~ zero_padded n.
Proof.
  intros H [(c & n' & ->)|(n' & ->)].
  - unfold canon_nat in H. discriminate.
  - apply canon_nat_digits in H as [H _]. cbn in H. discriminate.
Qed.
Lemma dec_text_not_padded z n : dec_text z n -> ~ zero_padded n.
Proof.
  intros [(Hz & Hc & Hv)|(Hz & n' & -> & Hc & Hv)].
  - apply canon_not_padded, Hc.
  - intros [(c & k & [=])|(k & [= ->])].
    destruct k as [|c k]; [cbn in Hv; lia|]. unfold canon_nat in Hc. discriminate.
Qed.

Lemma dec_text_digit z n : 0 <= z -> dec_text z n -> starts_with_digit n.
Proof.
  intros Hz [(_ & Hc & _)|(Hz' & _)]; [|lia].
  apply canon_nat_digits in Hc as [Hd Hn]. destruct n as [|c n]; [congruence|].
  cbn in Hd. apply andb_true_iff in Hd as [Hc' _]. exists c, n. auto.
Qed.

(** Prefix uniqueness of delimited number texts. *)
Lemma delim_unique d n n' r r' : num_char d = false ->
  forallb num_char n = true -> forallb num_char n' = true ->
  n ++ d :: r = n' ++ d :: r' -> n = n' /\ r = r'.
Proof.
  intros Hd. revert n'. induction n as [|c n IH]; intros [|c' n'] Hn Hn' E; cbn in *.
  - injection E as ->. auto.
  - injection E as -> E. rewrite Hd in Hn'. discriminate.
  - injection E as <- E. rewrite Hd in Hn. discriminate.
  - injection E as -> E. apply andb_true_iff in Hn as [_ Hn], Hn' as [_ Hn'].
    destruct (IH n' Hn Hn' E) as [-> ->]. auto.
Qed.

Lemma lax_str_nonneg s t : lax_str s t -> exists c t', t = c :: t' /\ num_char c = true.
Proof.
  intros (n & Hn & _ & ->). apply go_int_chars in Hn as [Hc Hn]. destruct n as [|c n]; [congruence|].
  cbn in Hc. apply andb_true_iff in Hc as [Hc _]. exists c. eexists. split; [reflexivity|exact Hc].
Qed.

Lemma app_len_inv {A} (a a' b b' : list A) : List.length a = List.length a' -> a ++ b = a' ++ b' -> a = a' /\ b = b'.
Proof.
  revert a'; induction a as [|x a IH]; intros [|y a'] L E; cbn in *; try discriminate; auto.
  injection E as -> E. destruct (IH a' ltac:(lia) E) as [-> ->]. auto.
Qed.

Lemma lax_str_unique s t r s' t' r' : lax_str s t -> lax_str s' t' -> t ++ r = t' ++ r' -> s = s' /\ t = t' /\ r = r'.
Proof.
  intros (n & Hn & _ & ->) (n' & Hn' & _ & ->) E. rewrite <- !app_assoc in E. cbn [app] in E.
  apply delim_unique in E as [-> E]; [|reflexivity|apply (go_int_chars _ _ Hn)|apply (go_int_chars _ _ Hn')].
  pose proof (go_int_inj _ _ _ Hn Hn') as L.
  apply app_len_inv in E as [-> ->]; [auto|]. unfold zlen in L. lia.
Qed.

Lemma gram_first w ord v t : gram w ord v t -> exists c t', t = c :: t' /\
  match v with
  | BInt _ => c = "i"%byte | BList _ => c = "l"%byte | BDict _ => c = "d"%byte
  | BStr _ => num_char c = true
  end.
Proof.
  intros H. inversion H; subst; try (eexists _, _; split; reflexivity).
  eapply lax_str_nonneg; eassumption.
Qed.
Lemma gram_first_not_e w ord v t : gram w ord v t -> exists c t', t = c :: t' /\ c <> "e"%byte.
Proof.
  intros H. apply gram_first in H as (c & t' & -> & H). exists c, t'. split; [reflexivity|].
  destruct v; subst; try discriminate; intros ->; discriminate.
Qed.

(** The syntax is unambiguous and prefix free, with any key-order requirement. *)
Lemma gram_unique w o w' o' v : forall t r v' t' r',
  gram w o v t -> gram w' o' v' t' -> t ++ r = t' ++ r' -> v = v' /\ t = t' /\ r = r'.
Proof.
  assert (forall z n z' n', (go_int z n \/ (w = true /\ go_uint z n)) -> (go_int z' n' \/ (w' = true /\ go_uint z' n')) -> forall r r',
     n ++ "e"%byte :: r = n' ++ "e"%byte :: r' -> z = z' /\ n = n' /\ r = r') as Kint.
  { intros z n z' n' H H' r r' E.
    assert (forallb num_char n = true) as Cn by (destruct H as [H|[_ H]]; [apply (go_int_chars _ _ H)|apply (go_uint_chars _ _ H)]).
    assert (forallb num_char n' = true) as Cn' by (destruct H' as [H'|[_ H']]; [apply (go_int_chars _ _ H')|apply (go_uint_chars _ _ H')]).
    apply delim_unique in E as [-> ->]; auto. split; [|auto].
    destruct H as [H|[_ H]], H' as [H'|[_ H']].
    - eapply go_int_inj; eauto.
    - eapply go_int_uint; eauto.
    - symmetry. eapply go_int_uint; eauto.
    - destruct H as (_ & _ & -> & _), H' as (_ & _ & -> & _). reflexivity. }
  induction v as [z|s|l IHl|m IHm] using bval_ind'; intros t r v' t' r' H H' E.
  - inversion H; subst. destruct v' as [z'|s'|l'|m']; inversion H' as [z0 n' Hz' Hp'|s0 t0 Hs' Ht'| |]; subst; cbn in E; try discriminate E.
    + injection E as E. rewrite <- !app_assoc in E. cbn in E.
      destruct (Kint _ _ _ _ H1 Hz' _ _ E) as (-> & -> & ->). auto.
    + exfalso. apply lax_str_nonneg in Hs' as (c & u & -> & N). cbn in E. injection E as <- E. discriminate.
  - pose proof (gram_first _ _ _ _ H') as (c' & u' & Et' & F').
    pose proof (gram_first _ _ _ _ H) as (c & u & Et & F). subst t t'. cbn in E. injection E as <- E.
    destruct v'; try (subst; discriminate).
    inversion H; subst. inversion H'; subst.
    destruct (lax_str_unique s (c :: u) r s0 (c :: u') r') as (-> & [= ->] & ->); auto. cbn. congruence.
  - inversion H as [| |l0 ts Hts|]; subst.
    destruct v' as [z'|s'|l'|m']; inversion H' as [|s0 t0 Hs' Ht'|l0' ts' Hts'|]; subst; cbn in E; try discriminate E.
    { exfalso. apply lax_str_nonneg in Hs' as (c & u & -> & N). cbn in E. injection E as <- E. discriminate. }
    injection E as E.
    rewrite <- !app_assoc in E. cbn [app] in E. clear H H'.
    assert (l = l' /\ ts = ts' /\ r = r') as (-> & -> & ->); [|auto].
    revert l' ts' Hts' ts Hts E. induction IHl as [|v l Hv _ IH]; intros l' ts' Hts' ts Hts E.
    + inversion Hts; subst. inversion Hts' as [|v' t' l'' ts'' G' G'']; subst.
      * cbn in E. injection E as ->. auto.
      * exfalso. cbn in E. rewrite <- app_assoc in E. apply gram_first_not_e in G' as (c & u & -> & N). cbn in E. congruence.
    + inversion Hts as [|v0 t l0 ts0 G G0]; subst. inversion Hts' as [|v' t' l'' ts'' G' G'']; subst.
      * exfalso. cbn in E. rewrite <- app_assoc in E. apply gram_first_not_e in G as (c & u & -> & N). cbn in E. congruence.
      * cbn in E. rewrite <- !app_assoc in E. destruct (Hv _ _ _ _ _ G G' E) as (-> & -> & E').
        destruct (IH _ _ G'' _ G0 E') as (-> & -> & ->). auto.
  - inversion H as [| | |m0 ks ts Ho Hks Hts]; subst.
    destruct v' as [z'|s'|l'|m']; inversion H' as [|s0 t0 Hs' Ht'| |m0' ks' ts' Ho' Hks' Hts']; subst; cbn in E; try discriminate E.
    { exfalso. apply lax_str_nonneg in Hs' as (c & u & -> & N). cbn in E. injection E as <- E. discriminate. }
    injection E as E.
    rewrite <- !app_assoc in E. cbn [app] in E. clear H H' Ho Ho'.
    assert (m = m' /\ concat (map (fun kt => fst kt ++ snd kt) (combine ks ts)) =
       concat (map (fun kt => fst kt ++ snd kt) (combine ks' ts')) /\ r = r') as (-> & -> & ->); [|auto].
    revert m' ks' Hks' ts' Hts' ks Hks ts Hts E. induction IHm as [|[k v] m Hv _ IH]; intros m' ks' Hks' ts' Hts' ks Hks ts Hts E.
    + cbn in Hks, Hts. inversion Hks; subst. inversion Hts; subst.
      destruct m' as [|[k' v'] m'].
      * cbn in Hks', Hts'. inversion Hks'; subst. inversion Hts'; subst. cbn in *. injection E as ->. auto.
      * exfalso. cbn in Hks', Hts'. inversion Hks' as [|a b c d K1 K2]; subst. inversion Hts'; subst. cbn in E.
        apply lax_str_nonneg in K1 as (c & u & -> & N). cbn in E. injection E as <- E. discriminate.
    + cbn in Hks, Hts. inversion Hks as [|a kt l1 l2 K1 K2]; subst. inversion Hts as [|a t l1 l3 T1 T2]; subst.
      destruct m' as [|[k' v'] m'].
      * exfalso. cbn in Hks', Hts'. inversion Hks'; subst. inversion Hts'; subst. cbn in E.
        apply lax_str_nonneg in K1 as (c & u & -> & N). cbn in E. injection E as -> E. discriminate.
      * cbn in Hks', Hts'. inversion Hks' as [|a' kt' l1' l2' K1' K2']; subst. inversion Hts' as [|a' t' l1' l3' T1' T2']; subst.
        cbn in E. rewrite <- !app_assoc in E.
        destruct (lax_str_unique _ _ _ _ _ _ K1 K1' E) as (-> & -> & E').
        destruct (Hv _ _ _ _ _ T1 T1' E') as (E1 & -> & E''). cbn in E1. subst v'.
        destruct (IH _ _ K2' _ T2' _ K2 _ T2 E'') as (-> & EE & ->). cbn. rewrite EE. auto.
Qed.

Lemma Forall2_impl_l {A B} (R R' : A -> B -> Prop) l lb :
  Forall (fun a => forall b, R a b -> R' a b) l -> Forall2 R l lb -> Forall2 R' l lb.
Proof. intros F H. induction H; constructor; inversion F; auto. Qed.
Lemma Forall2_Forall_l {A B} (R : A -> B -> Prop) (P : A -> Prop) l lb :
  Forall (fun a => forall b, R a b -> P a) l -> Forall2 R l lb -> Forall P l.
Proof. intros F H. induction H; constructor; inversion F; eauto. Qed.
Lemma fold_and_Forall {A} (P : A -> Prop) l : fold_right (fun x a => P x /\ a) True l <-> Forall P l.
Proof. induction l as [|x l IH]; cbn; [intuition|]. rewrite IH. split; [intros [? ?]; constructor; auto|inversion 1; auto]. Qed.

(** Monotonicity. *)
Lemma gram_mono w (o : list bytes -> Prop) (w' : bool) (o' : list bytes -> Prop) v : (w = true -> w' = true) -> (forall ks, o ks -> o' ks) ->
  forall t, gram w o v t -> gram w' o' v t.
Proof.
  intros Hw Ho. induction v as [z|s|l IHl|m IHm] using bval_ind'; intros t H;
    inversion H as [z0 n Hz Hp|s0 t0 Hs Ht|l0 ts Hts|m0 ks ts Hm Hks Hts]; subst.
  - constructor; [|assumption]. tauto.
  - constructor; [assumption|]. tauto.
  - constructor. eapply Forall2_impl_l; eauto.
  - constructor; auto. eapply Forall2_impl_l; [|exact Hts]. apply Forall_map. exact IHm.
Qed.
Lemma lax_lax_typed v t : lax v t -> lax_typed v t.
Proof. apply gram_mono; auto. Qed.
Lemma lax_typed_any v t : lax_typed v t -> any_order v t.
Proof. apply gram_mono; auto. Qed.

(** Every dictionary inside has ascending non-empty keys. *)

Lemma gram_sorted w v : forall t, gram w ascending_nonempty v t -> b_sorted v.
Proof.
  induction v as [z|s|l IHl|m IHm] using bval_ind'; intros t H;
    inversion H as [z0 n Hz Hp|s0 t0 Hs Ht|l0 ts Hts|m0 ks ts Hm Hks Hts]; subst; cbn; auto.
  - apply fold_and_Forall. eapply Forall2_Forall_l; eauto.
  - split; [assumption|]. apply (fold_and_Forall (fun p => b_sorted (snd p))).
    apply Forall_map. eapply Forall2_Forall_l; [|exact Hts]. apply Forall_map. exact IHm.
Qed.

(** Canonical texts are accepted texts. *)
Lemma ascending_cons_nil ks : ascending ks -> Forall (fun k => k <> []) ks -> ascending_nonempty ks.
Proof.
  intros H F. unfold ascending_nonempty, ascending. constructor; [exact H|].
  eapply Forall_impl; [|exact F]. intros a Ha. apply bytes_ltb_nil. exact Ha.
Qed.

Lemma str_text_lax s t : zlen s <= 2 ^ 48 -> str_text s t -> lax_str s t /\ starts_with_digit t.
Proof.
  intros L (n & Hn & ->). split.
  - exists n. split; [|auto]. apply dec_text_go_int; [exact Hn|]. pose proof (zlen_nonneg s).
    unfold is_int64, min_int64, max_int64. lia.
  - apply dec_text_digit in Hn as (c & n' & -> & Hc); [|apply zlen_nonneg]. exists c. eexists. split; [reflexivity|exact Hc].
Qed.

(** All strings and keys no longer than a Go slice can be. *)


Lemma bep3_lax v : forall t, bep3 v t ->
  b_all (fun z => is_int64 z = true) (fun k => k <> []) v -> b_small v -> lax v t.
Proof.
  induction v as [z|s|l IHl|m IHm] using bval_ind'; intros t H A B;
    inversion H as [z0 n Hz|s0 t0 Hs|l0 ts Hts|m0 ks ts Hm Hks Hts]; subst.
  - apply gram_int; [|eapply dec_text_not_padded; eauto]. left. apply dec_text_go_int; auto.
  - destruct (str_text_lax _ _ B Hs) as [B1 B2]. apply gram_string; auto.
  - cbn in A, B. apply fold_and_Forall in A, B. constructor. eapply Forall2_impl_l; [|exact Hts].
    rewrite Forall_forall in *. intros x Hx b Hb. apply IHl; auto.
  - cbn in A, B.
    assert (Forall (fun p : bytes * bval => fst p <> [] /\ b_all (fun z => is_int64 z = true) (fun k => k <> []) (snd p)) m) as A'.
    { clear -A. induction m as [|p m IH]; constructor; cbn in A; tauto. }
    assert (Forall (fun p : bytes * bval => zlen (fst p) <= 2 ^ 48 /\ b_small (snd p)) m) as B'.
    { clear -B. induction m as [|p m IH]; constructor; cbn in B; tauto. }
    clear A B. constructor.
    + apply ascending_cons_nil; [assumption|]. apply Forall_map. eapply Forall_impl; [|exact A']. cbn. tauto.
    + eapply Forall2_impl_l; [|exact Hks]. apply Forall_map. eapply Forall_impl; [|exact B'].
      cbn. intros p [L _] b Hb. apply str_text_lax; assumption.
    + eapply Forall2_impl_l; [|exact Hts]. apply Forall_map. rewrite Forall_forall in *.
      intros p Hp b Hb. apply IHm; auto; [apply A'|apply B']; auto.
Qed.
