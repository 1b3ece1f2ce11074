From Verif Require Import GoBase Strconv BencSpec GoBaseProofs StrconvProofs BencSpecProofs BencDecodeProofs BencApiProofs Url UrlSpec UrlProofs Magnet MagnetSpec.

Section Magnet.
Variable hier_ok : bytes -> bytes -> bool.
Lemma magnet_query q : Forall link_byte q -> url_parse_query hier_ok (bs "magnet:?" ++ q) = Some q.
Proof.
  intros F. unfold url_parse_query. rewrite cut_none.
  2: { rewrite in_app_iff. intros [H|H]; [vm_compute in H; intuition discriminate|]. rewrite Forall_forall in F. apply F in H as (_ & _ & H). congruence. }
  assert (has_ctl (bs "magnet:?" ++ q) = false) as ->.
  { unfold has_ctl. rewrite existsb_app. apply orb_false_iff. split; [reflexivity|]. induction F as [|c q (A & B & _) F IH]; [reflexivity|].
    cbn [existsb]. rewrite IH, orb_false_r. apply orb_false_iff. split; [apply Z.ltb_ge; exact A|apply Z.eqb_neq; exact B]. }
  change (bytes_eqb (bs "magnet:?" ++ q) (bs "*")) with false. cbn [andb].
  change (get_scheme (bs "magnet:?" ++ q) [] (bs "magnet:?" ++ q)) with (Some (bs "magnet", "?"%byte :: q)). cbn iota beta.
  destruct (ends_with_only_qmark ("?"%byte :: q)) eqn:E.
  - unfold ends_with_only_qmark in E. cbn [rev] in E. destruct (rev q) as [|c r] eqn:Er.
    + assert (q = []) as -> by (rewrite <- (rev_involutive q), Er; reflexivity). reflexivity.
    + cbn [app] in E. apply andb_true_iff in E as [_ E]. apply negb_true_iff, existsb_beqb_not in E. exfalso. apply E. rewrite in_app_iff. right. left. reflexivity.
  - reflexivity.
Qed.
Lemma values_get_all k m : values_get k m = hd [] (values_all k m).
Proof. reflexivity. Qed.
Theorem magnet_spec q ps : Forall link_byte q -> query_means q ps ->
  (first_value (bs "xl") ps = [] -> parse_magnet hier_ok (bs "magnet:?" ++ q) = Some (magnet_of ps 0)) /\
  (forall z, go_int z (first_value (bs "xl") ps) -> parse_magnet hier_ok (bs "magnet:?" ++ q) = Some (magnet_of ps z)) /\
  (first_value (bs "xl") ps <> [] -> (forall z, ~ go_int z (first_value (bs "xl") ps)) -> parse_magnet hier_ok (bs "magnet:?" ++ q) = None).
Proof.
  intros F M. unfold parse_magnet. rewrite (magnet_query q F). rewrite !values_get_all, !(parse_query_means q ps _ M). fold (first_value (bs "xt") ps) (first_value (bs "dn") ps) (first_value (bs "ws") ps) (first_value (bs "xl") ps).
  split; [|split].
  - intros ->. reflexivity.
  - intros z G. pose proof (proj2 (go_int_parse _ _) G) as A. change parse_int with atoi in A. destruct (first_value (bs "xl") ps) as [|c s]; [discriminate A|]. rewrite A. reflexivity.
  - intros N G. destruct (first_value (bs "xl") ps) as [|c s]; [congruence|]. destruct (atoi (c :: s)) as [z|] eqn:A; [|reflexivity].
    exfalso. apply (G z). apply go_int_parse. exact A.
Qed.
End Magnet.
