(** Proofs about the model of net.ParseIP and IP.String. *)
From Verif Require Import GoBase Strconv BencFields BencSpec GoBaseProofs StrconvProofs BencSpecProofs Url UrlProofs NetIP.

Lemma octet_format b : parse_octet (format_Z (b2z b)) = Some b.
Proof. destruct b; vm_compute; reflexivity. Qed.
Lemma octet_clean b c : In c (format_Z (b2z b)) -> is_digit c = true.
Proof.
  assert (forallb is_digit (format_Z (b2z b)) = true) as H by (destruct b; vm_compute; reflexivity).
  rewrite forallb_forall in H. apply H.
Qed.
Lemma octet_canon s b : parse_octet s = Some b -> s = format_Z (b2z b).
Proof.
  assert (forall s, canon_nat s = true -> match parse_N s with Some n => if Z.of_N n <=? 255 then Some (z2b (Z.of_N n)) else None | None => None end = Some b -> s = format_Z (b2z b)) as K.
  { intros t Ct. destruct (parse_N t) as [n|] eqn:P; [|discriminate]. destruct (Z.of_N n <=? 255) eqn:Le; [|discriminate]. intros [= <-].
    rewrite b2z_z2b, Z.mod_small by lia. rewrite format_Z_nonneg by lia. rewrite N2Z.id. apply canon_parse_format; auto. }
  unfold parse_octet. intros H. destruct s as [|c s]; [discriminate|].
  assert (forallb is_digit (c :: s) = true) as Dg.
  { assert (exists n, parse_N (c :: s) = Some n) as (n & P).
    { destruct (parse_N (c :: s)) as [n|]; [eauto|]. destruct s; [|destruct (beqb c "0")]; discriminate. }
    apply parse_N_Some in P. tauto. }
  destruct s as [|c' s].
  - apply K; [|exact H]. cbn in *. rewrite andb_true_r in Dg. exact Dg.
  - destruct (beqb c "0") eqn:Z0; [discriminate|]. apply K; [|exact H]. unfold canon_nat. rewrite Z0. cbn [negb andb]. exact Dg.
Qed.
Lemma digit_not_dot b : ~ In "."%byte (format_Z (b2z b)).
Proof. intros I. apply octet_clean in I. discriminate. Qed.
Lemma show_v4_four a b c d : show_v4 [a; b; c; d] =
  format_Z (b2z a) ++ "."%byte :: format_Z (b2z b) ++ "."%byte :: format_Z (b2z c) ++ "."%byte :: format_Z (b2z d).
Proof. reflexivity. Qed.
Lemma parse_show_v4 a b c d : parse_v4 (show_v4 [a; b; c; d]) = Some [a; b; c; d].
Proof.
  unfold parse_v4. rewrite show_v4_four. rewrite !split_on_app, split_on_clean by apply digit_not_dot. rewrite !octet_format. reflexivity.
Qed.
Lemma parse_v4_inv s q : parse_v4 s = Some q -> exists a b c d, q = [a; b; c; d] /\ s = show_v4 q.
Proof.
  unfold parse_v4. intros H. pose proof (join_split_on "."%byte s) as J.
  destruct (split_on "."%byte s) as [|ta [|tb [|tc [|td [|? ?]]]]]; try discriminate.
  destruct (parse_octet ta) as [a|] eqn:A; [|discriminate]. destruct (parse_octet tb) as [b|] eqn:B; [|discriminate].
  destruct (parse_octet tc) as [c|] eqn:C; [|discriminate]. destruct (parse_octet td) as [d|] eqn:D; [|discriminate].
  injection H as <-. exists a, b, c, d. split; [reflexivity|]. apply octet_canon in A, B, C, D. subst ta tb tc td. rewrite <- J. reflexivity.
Qed.
Lemma parse_v4_canon s q : parse_v4 s = Some q -> s = show_v4 q.
Proof. intros H. apply parse_v4_inv in H as (a & b & c & d & _ & H). exact H. Qed.
Lemma parse_v4_len s q : parse_v4 s = Some q -> exists a b c d, q = [a; b; c; d].
Proof. intros H. apply parse_v4_inv in H as (a & b & c & d & H & _). eauto. Qed.
Lemma first_mark_digits s r : forallb is_digit s = true -> first_mark (s ++ "."%byte :: r) = Some "."%byte.
Proof.
  induction s as [|c s IH]; [reflexivity|]. cbn [forallb app first_mark]. intros H. apply andb_prop in H as [D H].
  replace (existsb (beqb c) (bs ".:%")) with false; [auto|]. cbn. rewrite !(digit_not c) by (auto; reflexivity). reflexivity.
Qed.
Lemma parse_ip_show a b c d : parse_ip (show_v4 [a; b; c; d]) = Some (ipv4 [a; b; c; d]).
Proof.
  unfold parse_ip. rewrite show_v4_four at 1. rewrite first_mark_digits; [|apply forallb_forall; apply octet_clean].
  replace (beqb "." ".") with true by reflexivity. cbn iota. rewrite parse_show_v4. reflexivity.
Qed.
Lemma to4_ipv4 q : to4 (ipv4 q) = Some q.
Proof. reflexivity. Qed.
Lemma show_ipv4 q : show_ip (ipv4 q) = show_v4 q.
Proof. reflexivity. Qed.
(** Text that starts like a dotted address is canonical. *)
Lemma parse_ip_dotted s ip : first_mark s = Some "."%byte -> parse_ip s = Some ip -> show_ip ip = s.
Proof.
  unfold parse_ip. intros ->. replace (beqb "." ".") with true by reflexivity. cbn iota.
  destruct (parse_v4 s) as [q|] eqn:E; [|discriminate]. cbn [option_map]. intros H. injection H as <-. rewrite show_ipv4. symmetry. apply parse_v4_canon, E.
Qed.

(** Parsed addresses have 16 bytes. *)
Lemma v6_loop_len n : forall acc ell s r e t, v6_loop n acc ell s = Some (r, e, t) ->
  (List.length acc + 2 * n <= 16)%nat -> (match ell with Some k => k <= List.length acc | None => True end)%nat ->
  (List.length r <= 16 /\ match e with Some k => k <= List.length r | None => True end)%nat.
Proof.
  induction n as [|n IH]; intros acc ell s r e t H L E; cbn [v6_loop] in H; [injection H as <- <- <-; split; [lia|exact E]|].
  destruct (hex_run s) as [ds rest]. destruct (_ || _); [discriminate|]. destruct rest as [|c rest1].
  - injection H as <- <- <-. rewrite app_length. cbn [List.length put_u16]. split; [lia|]. destruct ell; [lia|exact I].
  - destruct (beqb c ".").
    + destruct (match ell with Some _ => false | None => _ end || (12 <? List.length acc)%nat) eqn:O; [discriminate|].
      apply orb_false_iff in O as [_ O]. apply Nat.ltb_ge in O.
      destruct (parse_v4 s) as [q|] eqn:Q; [|discriminate]. injection H as <- <- <-. apply parse_v4_len in Q as (? & ? & ? & ? & ->).
      rewrite app_length. cbn [List.length]. split; [lia|]. destruct ell; [lia|exact I].
    + destruct (negb (beqb c ":")); [discriminate|]. destruct rest1 as [|c2 rest2]; [discriminate|].
      assert (forall k, List.length (acc ++ put_u16 k) = List.length acc + 2)%nat as LA by (intros k; rewrite app_length; reflexivity).
      destruct (beqb c2 ":").
      * destruct ell; [discriminate|]. destruct rest2; [injection H as <- <- <-; rewrite LA; lia|].
        eapply IH; [exact H| |]; rewrite ?LA; lia.
      * eapply IH; [exact H| |]; rewrite ?LA; [lia|]. destruct ell; [lia|exact I].
Qed.
Lemma parse_v6_len s ip : parse_v6 s = Some ip -> List.length ip = 16%nat.
Proof.
  unfold parse_v6. intros H.
  set (start := match s with c1 :: c2 :: s' => _ | _ => _ end) in H.
  assert (match (match start with Some s' => v6_loop 8 [] (Some O) s' | None => v6_loop 8 [] None s end) with
      | Some (ip, ell, []) =>
          if (List.length ip <? 16)%nat then
            match ell with
            | Some e => Some (firstn e ip ++ repeat "000"%byte (16 - List.length ip) ++ skipn e ip)
            | None => None
            end
          else match ell with Some _ => None | None => Some ip end
      | _ => None
      end = Some ip \/ start = Some []) as [K| ->].
  { destruct start as [[|]|]; auto. }
  2: { injection H as <-. reflexivity. }
  clear H. destruct (match start with Some s' => _ | None => _ end) as [[[r e] t]|] eqn:L; [|discriminate].
  assert (List.length r <= 16 /\ match e with Some k => k <= List.length r | None => True end)%nat as [L1 L2].
  { destruct start; eapply v6_loop_len; eauto; cbn; lia. }
  destruct t; [|discriminate]. destruct (List.length r <? 16)%nat eqn:Lt; [apply Nat.ltb_lt in Lt|apply Nat.ltb_ge in Lt].
  - destruct e as [k|]; [|discriminate]. assert (E : ip = firstn k r ++ repeat "000"%byte (16 - List.length r) ++ skipn k r) by congruence. rewrite E. rewrite !app_length, repeat_length, firstn_length, skipn_length. lia.
  - destruct e; [discriminate|]. injection K as <-. lia.
Qed.
Lemma parse_ip_len s ip : parse_ip s = Some ip -> List.length ip = 16%nat.
Proof.
  unfold parse_ip. destruct (first_mark s) as [c|]; [|discriminate]. destruct (beqb c ".").
  - destruct (parse_v4 s) as [q|] eqn:Q; [|discriminate]. intros [= <-]. apply parse_v4_len in Q as (? & ? & ? & ? & ->). reflexivity.
  - destruct (beqb c ":"); [|discriminate]. destruct (existsb _ s); [discriminate|]. apply parse_v6_len.
Qed.
Lemma to4_inv ip q : List.length ip = 16%nat -> to4 ip = Some q -> ip = ipv4 q /\ exists a b c d, q = [a; b; c; d].
Proof.
  intros L H. unfold to4 in H. destruct (bytes_eqb (firstn 12 ip) v4_prefix) eqn:E; [|discriminate]. assert (q = skipn 12 ip) as -> by congruence. clear H. apply bytes_eqb_eq in E. split.
  - unfold ipv4. rewrite <- E. symmetry. apply firstn_skipn.
  - assert (List.length (skipn 12 ip) = 4%nat) as L4 by (rewrite skipn_length; lia).
    destruct (skipn 12 ip) as [|a [|b [|c [|d [|? ?]]]]]; try discriminate L4. exists a, b, c, d. reflexivity.
Qed.
