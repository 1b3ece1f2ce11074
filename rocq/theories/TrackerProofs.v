(** Proofs about tracker.go. *)
From Verif Require Import GoBase Strconv BencTypes BencFields BencEncode BencDecode BencSpec BencEncSpec BencFieldSpec BencRoundSpec BencPanicSpec
  GoBaseProofs StrconvProofs BencSpecProofs BencConsumeProofs BencDecodeEqs BencDecodeProofs BencFieldsProofs BencResolveProofs BencFuelProofs BencEncodeProofs
  BencDepthProofs BencFrameProofs BencApiProofs BencRoundProofs BencRoundTrip BencPanicProofs Metainfo MetainfoProofs
  Url UrlSpec UrlProofs NetIP NetIPProofs Tracker TrackerSpec.
From Coq Require Import Permutation.

(** *** C30 *)
Definition sent (r : request) : list (bytes * bytes) :=
  filter (fun kv => match snd kv with [] => false | _ => true end) (request_params r).
Lemma set_fold l : forall m, NoDup (map fst l) -> (forall k, In k (map fst l) -> ~ In k (map fst m)) ->
  fold_left (fun m kv => match snd kv with [] => m | v => values_set (fst kv) v m end) l m =
  m ++ map (fun kv => (fst kv, [snd kv])) (filter (fun kv => match snd kv with [] => false | _ => true end) l).
Proof.
  induction l as [|[k v] l IH]; intros m N D; [cbn; rewrite app_nil_r; reflexivity|]. cbn [map fst] in N. apply NoDup_cons_iff in N as [N1 N2].
  cbn [fold_left fst snd filter]. destruct v as [|c v]; [apply IH; [exact N2|intros k' I; apply D; right; exact I]|].
  unfold values_set at 2. rewrite assoc_set_fresh by (apply D; left; reflexivity). rewrite IH; [cbn [map]; rewrite <- app_assoc; reflexivity|exact N2|].
  intros k' I. rewrite map_app, in_app_iff. intros [J|[<-|[]]]; [apply (D k'); [right; exact I|exact J]|contradiction].
Qed.
Lemma flat_map_single {A B} (g : A -> B) (l : list A) : flat_map (fun x => [g x]) l = map g l.
Proof. induction l as [|x l IH]; [reflexivity|]. cbn. rewrite IH. reflexivity. Qed.
Lemma sort_by_map {A B} (g : A -> B) (ka : A -> bytes) (kb : B -> bytes) l : (forall x, kb (g x) = ka x) ->
  sort_by kb (map g l) = map g (sort_by ka l).
Proof.
  intros E. induction l as [|x l IH]; [reflexivity|]. cbn [map sort_by]. rewrite IH. generalize (sort_by ka l) as s.
  induction s as [|y s IHs]; [reflexivity|]. cbn [map insert_by]. rewrite !E. destruct (bytes_ltb (ka y) (ka x)); [cbn [map]; rewrite <- IHs; reflexivity|reflexivity].
Qed.
Lemma nodup_params r : NoDup (map fst (request_params r)).
Proof. cbn [request_params map fst]. repeat constructor; cbn; intuition discriminate. Qed.
Lemma encode_pairs r : request_encode r = pairs_text (sort_by fst (sent r)).
Proof.
  unfold request_encode, values_encode. rewrite set_fold; [|apply nodup_params|intros k _ []]. cbn [app]. fold (sent r).
  rewrite (sort_by_map _ fst) by reflexivity. unfold pairs_text. f_equal. generalize (sort_by fst (sent r)) as l. intros l.
  induction l as [|kv l IH]; [reflexivity|]. cbn [map flat_map fst snd app]. rewrite IH. reflexivity.
Qed.
Lemma sent_nonnil r : sent r <> [].
Proof.
  intros E. assert (In (bs "compact", if r_compact r then bs "1" else bs "0") (sent r)) as H; [|rewrite E in H; destruct H].
  unfold sent. apply filter_In. split; [cbn [request_params In]; tauto|destruct (r_compact r); reflexivity].
Qed.
Lemma get_param r k v m bad : parse_query (request_encode r) = (m, bad) -> In (k, v) (request_params r) -> bad = false /\ values_get k m = v.
Proof.
  rewrite encode_pairs. intros P I. pose proof (sort_by_perm fst (sent r)) as Pm.
  rewrite parse_pairs in P by (intros E; rewrite E in Pm; apply Permutation_nil in Pm; exact (sent_nonnil r Pm)).
  injection P as <- <-. split; [reflexivity|]. unfold values_get. rewrite all_values_fold. cbn [values_all assoc app].
  assert (NoDup (map fst (sort_by fst (sent r)))) as N.
  { eapply Permutation_NoDup; [apply Permutation_map; symmetry; exact Pm|]. apply filter_map_nodup, nodup_params. }
  destruct v as [|c v].
  - rewrite all_values_none; [reflexivity|]. intros J. apply in_map_iff in J as ([k' v'] & E & J). cbn in E. subst k'.
    eapply (Permutation_in _ Pm) in J. apply filter_In in J as [J Nz].
    assert (v' = []) as -> by (pose proof (nodup_params r) as N'; pose proof (in_assoc _ _ _ N' J) as A1; pose proof (in_assoc _ _ _ N' I) as A2; congruence). discriminate.
  - rewrite (all_values_in _ k (c :: v)); [reflexivity|exact N|]. eapply Permutation_in; [symmetry; exact Pm|]. apply filter_In. split; [exact I|reflexivity].
Qed.
Lemma copy20_id d v : zlen v = 20 -> zlen d = 20 -> copy20 d v = v.
Proof.
  unfold copy20, zlen. intros H1 H2. rewrite firstn_all2 by lia. rewrite skipn_all2 by lia. apply app_nil_r.
Qed.
Lemma format_Z_nonnil z : format_Z z <> [].
Proof. unfold format_Z. destruct (z <? 0); [discriminate|apply format_N_nonnil]. Qed.
Lemma set_field_nil k r : set_field k [] r = Some r.
Proof. reflexivity. Qed.
Lemma parse_format z : int_fits W64 z -> parse_int (format_Z z) = Some z.
Proof. intros H. apply parse_int_format. unfold int_fits in H. cbn [iw_bits] in H. unfold is_int64, min_int64, max_int64. lia. Qed.
Theorem request_round r : request_fits r -> request_decode new_request (request_encode r) = Some r.
Proof.
  intros (H1 & H2 & F). inversion_clear F as [|? ? Fp F']. inversion_clear F' as [|? ? Fu F]. inversion_clear F as [|? ? Fd F']. inversion_clear F' as [|? ? Fl _].
  unfold request_decode. destruct (parse_query (request_encode r)) as [m bad] eqn:P.
  assert (forall k v, In (k, v) (request_params r) -> values_get k m = v) as G by (intros k v I; eapply get_param; eauto).
  assert (bad = false) as -> by (eapply (get_param r (bs "ip")); [exact P|cbn; tauto]). clear P.
  unfold request_keys. cbn [fold_left].
  rewrite (G (bs "info_hash") (r_info_hash r)), (G (bs "peer_id") (r_peer_id r)), (G (bs "ip") (r_ip r)), (G (bs "port") (format_Z (r_port r))),
    (G (bs "uploaded") (format_Z (r_uploaded r))), (G (bs "downloaded") (format_Z (r_downloaded r))), (G (bs "left") (format_Z (r_left r))),
    (G (bs "event") (r_event r)), (G (bs "compact") (if r_compact r then bs "1" else bs "0")) by (cbn [request_params In]; tauto).
  apply parse_format in Fp, Fu, Fd, Fl.
  pose proof (format_Z_nonnil (r_port r)) as N1. pose proof (format_Z_nonnil (r_uploaded r)) as N2. pose proof (format_Z_nonnil (r_downloaded r)) as N3. pose proof (format_Z_nonnil (r_left r)) as N4.
  destruct r as [ih pid ip port up dn lf ev c]. cbn [r_info_hash r_peer_id r_ip r_port r_uploaded r_downloaded r_left r_event r_compact] in *.
  destruct (format_Z port) as [|cp fp]; [congruence|]. destruct (format_Z up) as [|cu fu]; [congruence|]. destruct (format_Z dn) as [|cd fd]; [congruence|]. destruct (format_Z lf) as [|cl fl]; [congruence|].
  assert (copy20 (r_info_hash new_request) ih = ih) as C1 by (apply copy20_id; [exact H1|reflexivity]).
  assert (copy20 (r_peer_id new_request) pid = pid) as C2 by (apply copy20_id; [exact H2|reflexivity]).
  destruct ih as [|ci ih]; [discriminate|]. destruct pid as [|cq pid]; [discriminate|].
  unfold set_field. 
  repeat match goal with |- context [bytes_eqb (bs ?a) (bs ?b)] => let v := eval vm_compute in (bytes_eqb (bs a) (bs b)) in change (bytes_eqb (bs a) (bs b)) with v end.
  cbn iota. cbn [r_info_hash r_peer_id] in *. rewrite C1, C2.
  destruct ip as [|c1 ip]; destruct ev as [|c2 ev]; destruct c; cbn [new_request r_info_hash r_peer_id r_ip r_port r_uploaded r_downloaded r_left r_event r_compact] in *; rewrite Fp; cbn iota beta; rewrite Fu; cbn iota beta; rewrite Fd; cbn iota beta; rewrite Fl; reflexivity.
Qed.

Lemma steps_bad segs : forall acc, snd (fold_left parse_step segs acc) = false <->
  snd acc = false /\ forall seg, In seg segs -> seg <> [] -> exists k v, piece_means seg k v.
Proof.
  induction segs as [|seg segs IH]; intros acc; cbn [fold_left In]. { split; [intros H; split; [exact H|intros ? []]|tauto]. }
  rewrite IH. destruct seg as [|c seg].
  { cbn [parse_step]. split; intros [A B]; (split; [exact A|]); intros s; [intros [<-|I] N; [congruence|auto]|auto]. }
  unfold parse_step. destruct (parse_piece (c :: seg)) as [[k v]|] eqn:P; cbn [snd].
  - split; intros [A B]; (split; [exact A|]); intros s; [intros [<-|I] N; [exists k, v; apply parse_piece_means; [discriminate|exact P]|auto]|auto].
  - split; [intros [A _]; discriminate|]. intros [_ B]. exfalso. destruct (B (c :: seg)) as (k & v & M); [auto|discriminate|].
    apply parse_piece_means in M; [congruence|discriminate].
Qed.
Lemma parse_query_bad q : snd (parse_query q) = false <-> well_formed_query q.
Proof.
  rewrite parse_query_steps, steps_bad. split.
  - intros [_ H]. exists (split_on "&"%byte q). split; [apply pieces_split; reflexivity|exact H].
  - intros (segs & P & H). apply pieces_split in P as <-. auto.
Qed.
Lemma copy20_zero v : copy20 (repeat x00 20) v = firstn 20 (v ++ repeat x00 20).
Proof.
  unfold copy20. rewrite firstn_app. f_equal. destruct (Nat.le_gt_cases (List.length v) 20) as [L|L].
  - do 20 (destruct v as [|? v]; [reflexivity|]). destruct v; [reflexivity|cbn in L; lia].
  - rewrite skipn_all2 by (rewrite repeat_length; lia). replace (20 - List.length v)%nat with 0%nat by lia. reflexivity.
Qed.
Definition opt_int (t : bytes) : option Z := match t with [] => Some 0 | _ => parse_int t end.
Lemma opt_int_param t z : opt_int t = Some z <-> int_param t z.
Proof.
  unfold opt_int, int_param. destruct t as [|c t].
  - split; [intros [= <-]; auto|]. intros [[_ ->]|H]; [reflexivity|]. apply go_int_parse in H. discriminate.
  - rewrite <- go_int_parse. split; [auto|]. intros [[E _]|H]; [discriminate|exact H].
Qed.
Definition mk_req a b c d e f g h i : request := {| r_info_hash := a; r_peer_id := b; r_ip := c; r_port := d; r_uploaded := e; r_downloaded := f; r_left := g; r_event := h; r_compact := i |}.
Lemma set_hash v b c d e f g h i : set_field (bs "info_hash") v (mk_req (repeat x00 20) b c d e f g h i) = Some (mk_req (copy20 (repeat x00 20) v) b c d e f g h i).
Proof. destruct v; reflexivity. Qed.
Lemma set_peer_id v a c d e f g h i : set_field (bs "peer_id") v (mk_req a (repeat x00 20) c d e f g h i) = Some (mk_req a (copy20 (repeat x00 20) v) c d e f g h i).
Proof. destruct v; reflexivity. Qed.
Lemma set_ip v a b d e f g h i : set_field (bs "ip") v (mk_req a b [] d e f g h i) = Some (mk_req a b v d e f g h i).
Proof. destruct v; reflexivity. Qed.
Lemma set_port v a b c e f g h i : set_field (bs "port") v (mk_req a b c 0 e f g h i) = option_map (fun z => mk_req a b c z e f g h i) (opt_int v).
Proof. destruct v; [reflexivity|]. unfold opt_int. change (set_field (bs "port") (b0 :: v) (mk_req a b c 0 e f g h i)) with (match parse_int (b0 :: v) with Some z => Some (mk_req a b c z e f g h i) | None => None end). destruct (parse_int _); reflexivity. Qed.
Lemma set_uploaded v a b c d f g h i : set_field (bs "uploaded") v (mk_req a b c d 0 f g h i) = option_map (fun z => mk_req a b c d z f g h i) (opt_int v).
Proof. destruct v; [reflexivity|]. unfold opt_int. change (set_field (bs "uploaded") (b0 :: v) (mk_req a b c d 0 f g h i)) with (match parse_int (b0 :: v) with Some z => Some (mk_req a b c d z f g h i) | None => None end). destruct (parse_int _); reflexivity. Qed.
Lemma set_downloaded v a b c d e g h i : set_field (bs "downloaded") v (mk_req a b c d e 0 g h i) = option_map (fun z => mk_req a b c d e z g h i) (opt_int v).
Proof. destruct v; [reflexivity|]. unfold opt_int. change (set_field (bs "downloaded") (b0 :: v) (mk_req a b c d e 0 g h i)) with (match parse_int (b0 :: v) with Some z => Some (mk_req a b c d e z g h i) | None => None end). destruct (parse_int _); reflexivity. Qed.
Lemma set_left v a b c d e f h i : set_field (bs "left") v (mk_req a b c d e f 0 h i) = option_map (fun z => mk_req a b c d e f z h i) (opt_int v).
Proof. destruct v; [reflexivity|]. unfold opt_int. change (set_field (bs "left") (b0 :: v) (mk_req a b c d e f 0 h i)) with (match parse_int (b0 :: v) with Some z => Some (mk_req a b c d e f z h i) | None => None end). destruct (parse_int _); reflexivity. Qed.
Lemma set_event v a b c d e f g i : set_field (bs "event") v (mk_req a b c d e f g [] i) = Some (mk_req a b c d e f g v i).
Proof. destruct v; reflexivity. Qed.
Lemma set_compact v a b c d e f g h : set_field (bs "compact") v (mk_req a b c d e f g h false) = Some (mk_req a b c d e f g h (bytes_eqb v (bs "1"))).
Proof. destruct v; reflexivity. Qed.
Lemma compact_param b t : (b = true <-> t = bs "1") <-> b = bytes_eqb t (bs "1").
Proof.
  split.
  - intros H. destruct (bytes_eqb t (bs "1")) eqn:E; [apply bytes_eqb_eq in E; tauto|]. apply bytes_eqb_neq in E. destruct b; [tauto|reflexivity].
  - intros ->. apply bytes_eqb_eq.
Qed.
Theorem request_decode_means q r : request_decode new_request q = Some r <-> request_means q r.
Proof.
  destruct (query_means_total q) as [ps M].
  assert (forall k, values_get k (fst (parse_query q)) = first_value k ps) as G.
  { intros k. unfold first_value. rewrite <- (parse_query_means q ps k M). reflexivity. }
  assert (request_means q r <-> well_formed_query q /\ 
    r_info_hash r = firstn 20 (first_value (bs "info_hash") ps ++ repeat x00 20) /\
    r_peer_id r = firstn 20 (first_value (bs "peer_id") ps ++ repeat x00 20) /\
    r_ip r = first_value (bs "ip") ps /\
    int_param (first_value (bs "port") ps) (r_port r) /\
    int_param (first_value (bs "uploaded") ps) (r_uploaded r) /\
    int_param (first_value (bs "downloaded") ps) (r_downloaded r) /\
    int_param (first_value (bs "left") ps) (r_left r) /\
    r_event r = first_value (bs "event") ps /\
    (r_compact r = true <-> first_value (bs "compact") ps = bs "1")) as ->.
  { unfold request_means. split; intros [W H]; (split; [exact W|]); [|exists ps; split; [exact M|exact H]].
    destruct H as (ps' & M' & H). assert (forall k, first_value k ps' = first_value k ps) as E.
    { intros k. rewrite <- G. unfold first_value. rewrite <- (parse_query_means q ps' k M'). reflexivity. }
    rewrite !E in H. exact H. }
  rewrite <- parse_query_bad, compact_param. unfold request_decode. destruct (parse_query q) as [m bad]. cbn [fst snd] in *.
  destruct bad. { split; [discriminate|intros [H _]; discriminate]. }
  unfold request_keys. cbn [fold_left]. rewrite !G.
  rewrite <- !copy20_zero.
  change new_request with (mk_req (repeat x00 20) (repeat x00 20) [] 0 0 0 0 [] false). rewrite <- !opt_int_param.
  rewrite set_hash, set_peer_id, set_ip, set_port.
  destruct (opt_int (first_value (bs "port") ps)) as [zp|]; cbn [option_map]. 2: { split; [discriminate|]. intros (_ & _ & _ & _ & H & _). discriminate. }
  rewrite set_uploaded. destruct (opt_int (first_value (bs "uploaded") ps)) as [zu|]; cbn [option_map]. 2: { split; [discriminate|]. intros (_ & _ & _ & _ & _ & H & _). discriminate. }
  rewrite set_downloaded. destruct (opt_int (first_value (bs "downloaded") ps)) as [zd|]; cbn [option_map]. 2: { split; [discriminate|]. intros (_ & _ & _ & _ & _ & _ & H & _). discriminate. }
  rewrite set_left. destruct (opt_int (first_value (bs "left") ps)) as [zl|]; cbn [option_map]. 2: { split; [discriminate|]. intros (_ & _ & _ & _ & _ & _ & _ & H & _). discriminate. }
  rewrite set_event, set_compact. destruct r as [a b c d e f g h i]. unfold mk_req. cbn [r_info_hash r_peer_id r_ip r_port r_uploaded r_downloaded r_left r_event r_compact].
  split; [intros [= <- <- <- <- <- <- <- <- <-]; repeat split; reflexivity|]. intros (_ & -> & -> & -> & [= ->] & [= ->] & [= ->] & [= ->] & -> & ->). reflexivity.
Qed.

(** *** Values of type Peers *)
Lemma any_ok C bv out rest : lax bv out -> unmarshal C TAny VNil (out ++ rest) = DOk (VPtr (any_of bv)) rest (zlen out).
Proof.
  intros L. eapply (unmarshal_eq _ (S (4 * List.length out + 2))); [|discriminate]. rewrite decode_S. cbn [is_ptr under negb andb impl].
  rewrite (decode_any_complete C bv out L) by (cbn; auto; lia). reflexivity.
Qed.
Lemma any_inv C inp v rest off : unmarshal C TAny VNil inp = DOk v rest off -> exists bv out, lax bv out /\ v = VPtr (any_of bv) /\ inp = out ++ rest /\ off = zlen out.
Proof.
  intros H. apply unmarshal_run in H as (n & H). destruct n as [|n]; [discriminate|].
  rewrite decode_S in H. cbn [is_ptr under negb andb impl] in H. apply dmap_ok in H as (v' & H & ->).
  apply (decode_any_sound_mut C n) in H as (_ & bv & out & L & -> & E & O). exists bv, out. repeat split; auto.
Qed.
Lemma peers_of_vals_map l : peers_of_vals (map (fun p => VPtr (peer_val p)) l) = Some l.
Proof. induction l as [|[i a p] l IH]; [reflexivity|]. cbn [map peers_of_vals peer_of_val peer_val p_id p_ip p_port]. rewrite IH. reflexivity. Qed.
Lemma peers_of_peers_val p : peers_of_val (peers_val p) = Some p.
Proof.
  destruct p as [c l]. unfold peers_val, peer_list_val. cbn [ps_compact ps_list]. destruct l as [|p l]; [reflexivity|].
  cbn [map slice_val peers_of_val]. change (VPtr (peer_val p) :: map (fun p => VPtr (peer_val p)) l) with (map (fun p => VPtr (peer_val p)) (p :: l)).
  rewrite peers_of_vals_map. reflexivity.
Qed.
Lemma set_list_val c l c0 l0 : set_list (peers_val {| ps_compact := c0; ps_list := l0 |}) c l = peers_val {| ps_compact := c || c0; ps_list := l |}.
Proof. reflexivity. Qed.
Lemma zero_peers : zero peers_ty = peers_val {| ps_compact := false; ps_list := [] |}.
Proof. reflexivity. Qed.

(** *** C29 *)
Lemma dotted_show a b c d t : dotted a b c d t <-> t = show_v4 [a; b; c; d].
Proof.
  rewrite show_v4_four. split.
  - intros (ta & tb & tc & td & A & B & C & D & ->). apply dec_text_format in A, B, C, D. subst. reflexivity.
  - intros ->. exists (format_Z (b2z a)), (format_Z (b2z b)), (format_Z (b2z c)), (format_Z (b2z d)).
    repeat split; try (apply dec_text_format; reflexivity).
Qed.
Lemma put_u16_two z : exists e f, put_u16 z = [e; f] /\ get_u16 e f = z mod 65536.
Proof. pose proof (get_put_u16 z) as H. unfold put_u16 in *. eexists _, _. split; [reflexivity|exact H]. Qed.
Lemma compact_general l : Forall (fun p => exists ip q, parse_ip (p_ip p) = Some ip /\ to4 ip = Some q) l ->
  exists c l', compact_peers l = Some c /\ zlen c = 6 * zlen l /\ six_by_six c = l' /\ Forall2 compact_view l l' /\ compact_peers l' = Some c.
Proof.
  induction 1 as [|p l (ip & q & P & Q) F (c & l' & E1 & E2 & E3 & E4 & E5)].
  - exists [], []. repeat split; constructor.
  - pose proof (parse_ip_len _ _ P) as L. destruct (to4_inv _ _ L Q) as (-> & a & b & c0 & d & ->).
    destruct (put_u16_two (p_port p)) as (e & f & U & G).
    exists ([a; b; c0; d; e; f] ++ c), ({| p_id := []; p_ip := show_v4 [a; b; c0; d]; p_port := get_u16 e f |} :: l').
    assert (compact_peer p = Some [a; b; c0; d; e; f]) as Cp by (unfold compact_peer; rewrite P, Q, U; reflexivity).
    split; [cbn [compact_peers]; rewrite Cp, E1; reflexivity|]. split; [rewrite zlen_app, E2; change (zlen [a; b; c0; d; e; f]) with 6; rewrite zlen_cons; lia|].
    split; [cbn [app six_by_six]; rewrite E3, show_ipv4; reflexivity|]. split.
    + constructor; [|exact E4]. exists (ipv4 [a; b; c0; d]), a, b, c0, d. repeat split; auto. apply dotted_show. reflexivity.
    + cbn [compact_peers]. unfold compact_peer. cbn [p_ip p_port]. rewrite parse_ip_show, to4_ipv4, E5, put_get_u16. reflexivity.
Qed.
Lemma unmarshal_compact c0 l0 s t rest : lax (BStr s) t -> peers_unmarshal (Some (peers_val {| ps_compact := c0; ps_list := l0 |})) (t ++ rest) =
  match parse_compact_peers s with
  | Some l => UOk (peers_val {| ps_compact := true; ps_list := l |})
  | None => UErr (peers_val {| ps_compact := true; ps_list := [] |})
  end.
Proof. intros L. unfold peers_unmarshal. rewrite (any_ok _ _ _ _ L). cbn [any_of]. rewrite !set_list_val. reflexivity. Qed.
Lemma marshal_bytes c : of_marshal (marshal plain_customs (Some (TSlice (TUint W8), VBytes c))) = Ok (enc_str c).
Proof. reflexivity. Qed.
Lemma lax_enc_str s : len_fits s -> lax (BStr s) (enc_str s).
Proof. intros L. destruct (lax_str_enc _ L). apply gram_string; auto. Qed.
Lemma ipv4_able l : Forall ipv4_peer l -> Forall (fun p => exists ip q, parse_ip (p_ip p) = Some ip /\ to4 ip = Some q) l.
Proof.
  apply Forall_impl. intros p ((a & b & c & d & D) & _). apply dotted_show in D. rewrite D, parse_ip_show.
  exists (ipv4 [a; b; c; d]), [a; b; c; d]. auto.
Qed.
Lemma compact_wire l c : Forall ipv4_peer l -> compact_peers l = Some c -> exists ws, Forall2 compact_form l ws /\ c = concat ws.
Proof.
  intros F. revert c. induction F as [|p l ((a & b & c0 & d & D) & Pr) F IH]; intros c.
  - intros [= <-]. exists []. split; [constructor|reflexivity].
  - cbn [compact_peers]. unfold compact_peer. pose proof (proj1 (dotted_show _ _ _ _ _) D) as Dt. rewrite Dt, parse_ip_show, to4_ipv4.
    destruct (compact_peers l) as [c'|]; [|discriminate]. destruct (put_u16_two (p_port p)) as (e & f & U & G). rewrite U. intros [= <-]. destruct (IH _ eq_refl) as (ws & F2 & ->).
    exists ([a; b; c0; d; e; f] :: ws). split; [|reflexivity].
    constructor; [|exact F2]. exists a, b, c0, d, e, f. repeat split; auto. rewrite Z.mod_small in G by exact Pr. unfold get_u16 in G. lia.
Qed.
Lemma view_ipv4 l l' : Forall ipv4_peer l -> Forall2 compact_view l l' -> l' = map without_id l.
Proof.
  intros F. induction 1 as [|p p' l l' (ip & a & b & c & d & P & Q & D & Po & I) F2 IH]; [reflexivity|].
  inversion_clear F as [|? ? ((a' & b' & c' & d' & D') & Pr) F']. cbn [map]. rewrite (IH F'). f_equal.
  apply dotted_show in D'. rewrite D', parse_ip_show in P. injection P as <-. rewrite to4_ipv4 in Q. injection Q as -> -> -> ->.
  apply dotted_show in D. destruct p as [i0 ip0 po0], p' as [i1 ip1 po1]. cbn [p_id p_ip p_port] in *. unfold without_id. cbn [p_ip p_port]. subst.
  rewrite Z.mod_small by exact Pr. reflexivity.
Qed.
Theorem compact_round l : Forall ipv4_peer l -> 6 * zlen l <= 2 ^ 48 ->
  exists ws, Forall2 compact_form l ws /\
    peers_marshal (Some (peers_val {| ps_compact := true; ps_list := l |})) = Ok (enc_str (concat ws)) /\
    forall c0 l0, peers_unmarshal (Some (peers_val {| ps_compact := c0; ps_list := l0 |})) (enc_str (concat ws)) =
      UOk (peers_val {| ps_compact := true; ps_list := map without_id l |}).
Proof.
  intros F L. destruct (compact_general l (ipv4_able l F)) as (c & l' & E1 & E2 & E3 & E4 & E5).
  destruct (compact_wire l c F E1) as (ws & W & ->). exists ws. split; [exact W|]. split.
  - unfold peers_marshal. rewrite peers_of_peers_val. cbn [ps_compact ps_list]. rewrite E1. apply marshal_bytes.
  - intros c0 l0. pose proof (unmarshal_compact c0 l0 (concat ws) (enc_str (concat ws)) []) as U. rewrite app_nil_r in U. rewrite U.
    + unfold parse_compact_peers. rewrite E2. replace (6 * zlen l mod 6 =? 0) with true by (symmetry; apply Z.eqb_eq; rewrite Z.mul_comm; apply Z.mod_mul; lia).
      cbn [negb]. rewrite E3, (view_ipv4 _ _ F E4). reflexivity.
    + apply lax_enc_str. unfold len_fits. lia.
Qed.
Theorem compact_reject s t rest c0 l0 : lax (BStr s) t -> zlen s mod 6 <> 0 ->
  exists v, peers_unmarshal (Some (peers_val {| ps_compact := c0; ps_list := l0 |})) (t ++ rest) = UErr v.
Proof.
  intros L N. rewrite (unmarshal_compact _ _ _ _ _ L). unfold parse_compact_peers. replace (zlen s mod 6 =? 0) with false by (symmetry; apply Z.eqb_neq; exact N). eexists. reflexivity.
Qed.
Lemma six_forms n : forall s, zlen s = 6 * Z.of_nat n -> exists ws, Forall2 compact_form (six_by_six s) ws /\ s = concat ws.
Proof.
  induction n as [|n IH]; intros s L.
  - destruct s; [|rewrite zlen_cons in L; pose proof (zlen_nonneg s); lia]. exists []. split; [constructor|reflexivity].
  - destruct s as [|a [|b [|c [|d [|e [|f s]]]]]]; try (unfold zlen in L; cbn [List.length] in L; lia).
    destruct (IH s) as (ws & F & E). { unfold zlen in *. cbn [List.length] in L. lia. }
    exists ([a; b; c; d; e; f] :: ws). split; [|cbn; rewrite <- E; reflexivity]. cbn [six_by_six]. constructor; [|exact F].
    exists a, b, c, d, e, f. cbn [p_ip p_port]. repeat split; [|unfold get_u16; lia]. apply dotted_show. rewrite show_ipv4. reflexivity.
Qed.
Theorem compact_accept s t rest c0 l0 : lax (BStr s) t -> zlen s mod 6 = 0 ->
  exists l ws, peers_unmarshal (Some (peers_val {| ps_compact := c0; ps_list := l0 |})) (t ++ rest) = UOk (peers_val {| ps_compact := true; ps_list := l |}) /\
    Forall2 compact_form l ws /\ Forall (fun p => p_id p = []) l /\ s = concat ws.
Proof.
  intros L N. rewrite (unmarshal_compact _ _ _ _ _ L). unfold parse_compact_peers. rewrite N. cbn [Z.eqb negb].
  destruct (six_forms (Z.to_nat (zlen s / 6)) s) as (ws & F & E).
  { pose proof (zlen_nonneg s). assert (0 <= zlen s / 6) by (apply Z.div_pos; lia). rewrite Z2Nat.id by lia. pose proof (Z.div_mod (zlen s) 6 ltac:(lia)). lia. }
  exists (six_by_six s), ws. repeat split; auto. clear.
  remember (List.length s) as n eqn:En. assert (List.length s <= n)%nat as L by lia. clear En. revert s L.
  induction n as [|n IH]; intros s L; [destruct s; [constructor|cbn in L; lia]|].
  destruct s as [|a [|b [|c [|d [|e [|f s]]]]]]; try constructor; [reflexivity|]. apply IH. cbn [List.length] in L. lia.
Qed.

(** *** Dictionary lists *)
Definition peer_text (p : peer) : bytes :=
  "d"%byte :: enc_str (bs "ip") ++ enc_str (p_ip p) ++ enc_str (bs "peer id") ++ enc_str (p_id p) ++ enc_str (bs "port") ++ enc_int (p_port p) ++ ["e"%byte].
Definition peer_bval (p : peer) : bval := BDict [(bs "ip", BStr (p_ip p)); (bs "peer id", BStr (p_id p)); (bs "port", BInt (p_port p))].
Definition list_text (l : list peer) : bytes := "l"%byte :: concat (map peer_text l) ++ ["e"%byte].
Definition peer_fields : list finfo := Eval vm_compute in sorted_fields peer_ty.
Lemma peer_fields_eq : sorted_fields peer_ty = peer_fields.
Proof. vm_compute. reflexivity. Qed.
Lemma encode_peer C n fl d p : (d < 1000)%nat -> encode C (S (S n)) peer_ty fl d (peer_val p) = EOk (peer_text p).
Proof.
  intros Hd. remember (S n) as m eqn:Em. cbn [encode].
  replace (if negb (is_ptr peer_ty) && fl_addr fl then ptr_impl m_marsh peer_ty else None) with (@None nat) by (destruct (fl_addr fl); reflexivity).
  replace (impl m_marsh peer_ty) with (@None nat) by reflexivity.
  replace (under peer_ty) with peer_ty by reflexivity. unfold peer_ty at 1. unfold peer_val at 1. cbn iota.
  replace (ptr_depth_limit <? S d)%nat with false by (symmetry; apply Nat.ltb_ge; unfold ptr_depth_limit; lia).
  rewrite peer_fields_eq. unfold peer_fields. cbn [fold_right f_index f_key f_omit].
  repeat match goal with |- context [field_by_index [?j] peer_ty fl (peer_val p)] =>
    let r := eval cbn in (field_by_index [j] peer_ty fl (peer_val p)) in
    change (field_by_index [j] peer_ty fl (peer_val p)) with r end.
  cbn iota. cbn [is_nil under andb]. subst m. rewrite !encode_int, !encode_str by reflexivity.
  cbn [ewrite eseq app]. unfold peer_text. rewrite ?app_nil_r, <- ?app_assoc. reflexivity.
Qed.
Lemma encode_peer_ptr C n fl d p : (d < 1000)%nat -> encode C (S (S (S n))) (TPtr peer_ty) fl d (VPtr (peer_val p)) = EOk (peer_text p).
Proof. intros Hd. change (encode C (S (S n)) peer_ty (fl_elem fl) d (peer_val p) = EOk (peer_text p)). apply encode_peer, Hd. Qed.
Lemma encode_list_eq C n fl l : encode C (S n) (TSlice (TPtr peer_ty)) fl O (VSlice l) =
  ewrite ["l"%byte] (eseq (fold_right (fun x k => eseq (encode C n (TPtr peer_ty) (fl_elem fl) 1 x) k) (EOk []) l) (EOk ["e"%byte])).
Proof. cbn [encode is_ptr under negb andb ptr_impl impl]. destruct (fl_addr fl); reflexivity. Qed.
Lemma encode_peers C n fl l : l <> [] -> encode C (S (S (S (S n)))) (TSlice (TPtr peer_ty)) fl O (peer_list_val l) = EOk (list_text l).
Proof.
  intros N. unfold peer_list_val. replace (slice_val (map (fun p => VPtr (peer_val p)) l)) with (VSlice (map (fun p => VPtr (peer_val p)) l)) by (destruct l; [congruence|reflexivity]).
  rewrite encode_list_eq. unfold list_text.
  assert (fold_right (fun x k => eseq (encode C (S (S (S n))) (TPtr peer_ty) (fl_elem fl) 1 x) k) (EOk []) (map (fun p => VPtr (peer_val p)) l) = EOk (concat (map peer_text l))) as ->.
  { clear N. induction l as [|p l IH]; [reflexivity|]. cbn [map fold_right concat]. rewrite IH, encode_peer_ptr by lia. reflexivity. }
  reflexivity.
Qed.
Lemma vdepth_peers l : (vdepth (peer_list_val l) <= 4)%nat.
Proof.
  unfold peer_list_val. destruct l as [|p l]; [cbn; lia|]. cbn [map slice_val]. change (VPtr (peer_val p) :: map (fun p => VPtr (peer_val p)) l) with (map (fun p => VPtr (peer_val p)) (p :: l)).
  cbn [vdepth]. apply le_n_S, MetainfoProofs.fold_max_le. intros x Hx. apply in_map_iff in Hx as (q & <- & _). cbn. lia.
Qed.
Lemma marshal_list l : l <> [] -> of_marshal (marshal plain_customs (Some (TSlice (TPtr peer_ty), peer_list_val l))) = Ok (list_text l).
Proof.
  intros N. rewrite (marshal_eq plain_customs 5 _ _ (EOk (list_text l))); [reflexivity| |pose proof (vdepth_peers l); lia]. apply encode_peers, N.
Qed.
Lemma peer_bep3 p : bep3 (peer_bval p) (peer_text p).
Proof.
  unfold peer_bval, peer_text.
  replace ("d"%byte :: _) with ("d"%byte :: dtext (map enc_str [bs "ip"; bs "peer id"; bs "port"]) [enc_str (p_ip p); enc_str (p_id p); enc_int (p_port p)] ++ bs "e")
    by (unfold dtext; cbn [map combine concat fst snd]; rewrite ?app_nil_r, <- ?app_assoc; reflexivity).
  eapply bep3_dict_app; [| |reflexivity]; cbn [map fst snd].
  - repeat (apply Sorted.SSorted_cons || apply Sorted.SSorted_nil || apply Forall_cons || apply Forall_nil); reflexivity.
  - repeat (apply Forall2_cons || apply Forall2_nil || apply enc_int_bep3 || apply enc_str_bep3).
Qed.
Lemma list_bep3 l : bep3 (BList (map peer_bval l)) (list_text l).
Proof. unfold list_text. constructor. induction l as [|p l IH]; cbn [map]; constructor; auto. apply peer_bep3. Qed.
Lemma list_lax l : Forall peer_fits l -> lax (BList (map peer_bval l)) (list_text l).
Proof.
  intros F. apply bep3_lax; [apply list_bep3| |].
  - induction F as [|p l (F1 & F2 & F3) F IH]; [exact I|]. cbn [map b_all fold_right]. split; [|exact IH].
    unfold peer_bval. cbn [b_all fold_right fst snd]. unfold int_fits in F3. cbn [iw_bits] in F3. change (64 - 1) with 63 in F3.
    assert (is_int64 (p_port p) = true) by (unfold is_int64, min_int64, max_int64; lia).
    repeat match goal with |- _ /\ _ => split end; first [assumption|discriminate|exact I].
  - induction F as [|p l (F1 & F2 & F3) F IH]; [exact I|]. cbn [map b_small fold_right]. split; [|exact IH].
    unfold peer_bval. cbn [b_small fold_right fst snd]. unfold len_fits in *.
    repeat match goal with |- _ /\ _ => split end; first [assumption|exact I|cbv; discriminate].
Qed.
Lemma parse_peers_any l : parse_peers (map any_of (map peer_bval l)) = Some l.
Proof. induction l as [|[i a p] l IH]; [reflexivity|]. cbn [map parse_peers]. rewrite IH. reflexivity. Qed.
Theorem list_round l : l <> [] -> Forall peer_fits l ->
  peers_marshal (Some (peers_val {| ps_compact := false; ps_list := l |})) = Ok (list_text l) /\
  forall c0 l0, peers_unmarshal (Some (peers_val {| ps_compact := c0; ps_list := l0 |})) (list_text l) = UOk (peers_val {| ps_compact := c0; ps_list := l |}).
Proof.
  intros N F. split.
  - unfold peers_marshal. rewrite peers_of_peers_val. cbn [ps_compact ps_list]. apply marshal_list, N.
  - intros c0 l0. unfold peers_unmarshal. pose proof (any_ok plain_customs _ _ [] (list_lax l F)) as U. rewrite app_nil_r in U. rewrite U.
    cbn [any_of]. unfold any_slice. rewrite parse_peers_any. reflexivity.
Qed.

(** *** Responses *)
Lemma survives_peers fl ps : fl_addr fl = true -> fl_ro fl = false -> sendable ps ->
  (ps_compact ps = true -> Forall (fun p => p_id p = [] /\ 0 <= p_port p < 65536 /\ exists a b c d, p_ip p = show_v4 [a; b; c; d]) (ps_list ps)) ->
  survives tracker_customs peers_ty fl (peers_val ps).
Proof.
  intros Ad Ro Sd Nm. apply sv_custom; auto. { cbn. rewrite Ad. reflexivity. }
  destruct ps as [c l]. unfold sendable in Sd. cbn [ps_compact ps_list] in *.
  change (c_marsh tracker_customs peers_id) with peers_marshal. change (c_unmarsh tracker_customs peers_id) with peers_unmarshal.
  change (zero (TStruct (bs "Peers") [(mf (bs "Compact") [], TBool); (mf (bs "List") [], TSlice (TPtr peer_ty))])) with (peers_val {| ps_compact := false; ps_list := [] |}).
  destruct c.
  - destruct Sd as [L F]. specialize (Nm eq_refl).
    assert (Forall ipv4_peer l) as F4.
    { eapply Forall_impl; [|exact Nm]. intros p (_ & Pr & a & b & c & d & E). split; [|exact Pr]. exists a, b, c, d. apply dotted_show. exact E. }
    destruct (compact_round l F4 L) as (ws & W & M & U).
    assert (map without_id l = l) as Id.
    { clear - Nm. induction Nm as [|[i a p] l (E & _) Nm IH]; [reflexivity|]. cbn in E. subst i. cbn [map]. rewrite IH. reflexivity. }
    exists (enc_str (concat ws)), (peers_val {| ps_compact := true; ps_list := l |}). split; [exact M|]. split; [|split; [rewrite U, Id; reflexivity|constructor]].
    exists (BStr (concat ws)). split; [|apply enc_str_bep3]. apply lax_enc_str. unfold len_fits.
    assert (zlen (concat ws) = 6 * zlen l) as ->; [|exact L]. clear - W. induction W as [|p w l ws (a & b & c & d & e & f & _ & _ & ->) W IH]; [reflexivity|].
    cbn [concat]. rewrite zlen_app, IH. change (zlen [a; b; c; d; e; f]) with 6. rewrite (zlen_cons p l). lia.
  - destruct Sd as [N F]. destruct (list_round l N F) as [M U]. exists (list_text l), (peers_val {| ps_compact := false; ps_list := l |}).
    split; [exact M|]. split; [|split; [apply U|constructor]]. exists (BList (map peer_bval l)). split; [apply list_lax, F|apply list_bep3].
Qed.
Lemma resp_emitted r f j : In f (sorted_fields response_ty) -> f_index f = [j] ->
  emitted response_ty fl_new (response_val r) f =
    match nth_error (struct_fields response_ty) j, nth_error (match response_val r with VStruct l => l | _ => [] end) j with
    | Some (_, ft), Some x => negb (is_nil ft x) && negb (f_omit f && is_empty_value ft x)
    | _, _ => false end.
Proof.
  intros H E. unfold emitted. rewrite E. cbn [field_by_index is_nil response_ty under response_val].
  destruct (nth_error (struct_fields _) j) as [[a ft]|]; [|reflexivity]. destruct (nth_error _ j); reflexivity.
Qed.
Definition plain_view (r : response) : Prop :=
  match rs_peers r with
  | Some ps => ps_compact ps = true -> Forall (fun p => p_id p = [] /\ 0 <= p_port p < 65536 /\ exists a b c d, p_ip p = show_v4 [a; b; c; d]) (ps_list ps)
  | None => True
  end.
Ltac omit_str EM := split; [reflexivity|]; let f := fresh in let Hf := fresh in let Hi := fresh in intros f Hf Hi; rewrite (EM f Hf Hi); vm_compute in Hf;
  repeat (destruct Hf as [<-|Hf]; [try discriminate Hi; vm_compute; reflexivity|]); destruct Hf.
Ltac emit_str EM := split; [reflexivity|]; split; [the_field; rewrite EM; [reflexivity|vm_compute; tauto|reflexivity]|]; left; split; [reflexivity|]; eapply sv_str; try reflexivity; assumption.
Ltac emit_int EM E := split; [reflexivity|]; split; [the_field; rewrite EM; [cbn [is_nil under is_empty_value f_omit]; try rewrite E; reflexivity|vm_compute; tauto|reflexivity]|]; left; split; [reflexivity|]; eapply sv_int; try reflexivity; assumption.
Lemma survives_response r : response_fits r -> plain_view r -> survives tracker_customs response_ty fl_new (response_val r).
Proof.
  intros (Fs & Fi & Fp) Pv. inversion_clear Fs as [|? ? S1 Fs']. inversion_clear Fs' as [|? ? S2 Fs]. inversion_clear Fs as [|? ? S3 _].
  inversion_clear Fi as [|? ? I1 Fi']. inversion_clear Fi' as [|? ? I2 Fi]. inversion_clear Fi as [|? ? I3 Fi']. inversion_clear Fi' as [|? ? I4 _].
  eapply sv_struct; try reflexivity; [fields_ok|]. intros j a ft x H1 H2. fold (response_val r).
  assert (forall f, In f (sorted_fields response_ty) -> f_index f = [j] -> emitted response_ty fl_new (response_val r) f = negb (is_nil ft x) && negb (f_omit f && is_empty_value ft x)) as EM'.
  { intros f Hf Ef. rewrite (resp_emitted r f j Hf Ef). cbn [response_val]. unfold struct_fields. cbn [under response_ty]. rewrite H1, H2. reflexivity. }
  assert (forall P : Prop, ((forall f, In f (sorted_fields response_ty) -> f_index f = [j] -> emitted response_ty fl_new (response_val r) f = negb (is_nil ft x) && negb (f_omit f && is_empty_value ft x)) -> P) -> P) as K by auto.
  clear EM'.
  destruct j as [|[|[|[|[|[|[|[|j]]]]]]]]; cbn in H1, H2; try (injection H1 as <- <-; injection H2 as <-); [| | | | | | | |destruct j; discriminate]; apply K; intros EM; clear K.
  - destruct (rs_failure r) as [|c s] eqn:E; [left; omit_str EM|right; emit_str EM].
  - right. split; [reflexivity|]. split; [the_field; rewrite EM; [reflexivity|vm_compute; tauto|reflexivity]|]. left. split; [reflexivity|]. eapply sv_int; try reflexivity. assumption.
  - unfold plain_view in Pv. destruct (rs_peers r) as [ps|] eqn:E; [right|left].
    + split; [reflexivity|]. split; [the_field; rewrite EM; [reflexivity|vm_compute; tauto|reflexivity]|]. right. eexists _, _. split; [reflexivity|]. split; [reflexivity|].
      apply survives_peers; auto.
    + split; [reflexivity|]. intros f Hf Hi'. rewrite (EM f Hf Hi'). reflexivity.
  - destruct (rs_warning r) as [|c s] eqn:E; [left; omit_str EM|right; emit_str EM].
  - destruct (rs_min_interval r =? 0) eqn:E; [apply Z.eqb_eq in E; rewrite E in *; left; omit_str EM|right; emit_int EM E].
  - destruct (rs_tracker_id r) as [|c s] eqn:E; [left; omit_str EM|right; emit_str EM].
  - destruct (rs_complete r =? 0) eqn:E; [apply Z.eqb_eq in E; rewrite E in *; left; omit_str EM|right; emit_int EM E].
  - destruct (rs_incomplete r =? 0) eqn:E; [apply Z.eqb_eq in E; rewrite E in *; left; omit_str EM|right; emit_int EM E].
Qed.
Lemma vdepth_response r : (vdepth (response_val r) <= 8)%nat.
Proof.
  unfold response_val. cbn [vdepth]. apply le_n_S, MetainfoProofs.fold_max_le. intros x Hx. cbn [In] in Hx.
  repeat (destruct Hx as [<-|Hx]; [try (cbn; lia)|]); [|destruct Hx].
  destruct (rs_peers r) as [ps|]; [|cbn; lia]. unfold peers_val. cbn [vdepth fold_right]. pose proof (vdepth_peers (ps_list ps)). lia.
Qed.
Lemma no_maps_peers ps : no_maps (peers_val ps).
Proof.
  unfold peers_val. cbn [no_maps fold_right]. split; [exact I|]. split; [|exact I]. unfold peer_list_val. destruct (ps_list ps) as [|p l]; [exact I|].
  cbn [map slice_val]. change (VPtr (peer_val p) :: map (fun p => VPtr (peer_val p)) l) with (map (fun p => VPtr (peer_val p)) (p :: l)).
  cbn [no_maps]. apply no_maps_all. intros x Hx. apply in_map_iff in Hx as (q & <- & _). cbn. tauto.
Qed.
Lemma no_maps_response r : no_maps (response_val r).
Proof. unfold response_val. cbn [no_maps fold_right]. repeat (split; [try exact I|]); try exact I. destruct (rs_peers r) as [ps|]; [cbn [no_maps]; apply no_maps_peers|exact I]. Qed.
Lemma encode_peers_ptr C n fl d ps : c_marsh C peers_id = peers_marshal -> fl_ro fl = false ->
  encode C (S n) (TPtr peers_ty) fl d (VPtr (peers_val ps)) = enc_marshaler C peers_id (Some (peers_val ps)) fl d.
Proof. intros HC R. reflexivity. Qed.
Lemma encode_resp_peers C n fl d r ps ps' : c_marsh C peers_id = peers_marshal -> rs_peers r = Some ps ->
  peers_marshal (Some (peers_val ps)) = peers_marshal (Some (peers_val ps')) ->
  encode C (S (S n)) response_ty fl d (response_val r) = encode C (S (S n)) response_ty fl d (response_val (with_peers (Some ps') r)).
Proof.
  intros HC Ep Em. apply encode_struct_ext; [reflexivity| |reflexivity]. intros f Hf. vm_compute in Hf.
  repeat (destruct Hf as [<-|Hf]; [cbn [f_index]; eexists _, _, _, _; split; [reflexivity|]; split; [reflexivity|]; rewrite ?Ep; cbn [with_peers rs_peers]; split; [reflexivity|]; split; [reflexivity|];
    first [reflexivity|rewrite !encode_peers_ptr by (exact HC || reflexivity); unfold enc_marshaler; rewrite HC, Em; reflexivity]|]).
  destruct Hf.
Qed.
Lemma encode_resp_ptr C n fl d v : encode C (S n) (TPtr response_ty) fl d (VPtr v) = encode C n response_ty (fl_elem fl) d v.
Proof. reflexivity. Qed.
Lemma plain_round r : response_fits r -> plain_view r ->
  exists b, marshal_response r = EOk b /\ unmarshal_response b = DOk (VPtr (response_val r)) [] (zlen b).
Proof.
  intros F P. pose proof (survives_response r F P) as Sv. destruct (round_trip_pointer_total _ _ _ Sv) as (b & Hb).
  { intros N. apply (nest_vdepth _ _ _ _ _ (Nat.le_refl _)) in N. pose proof (vdepth_response r). lia. }
  exists b. split; [exact Hb|]. destruct (round_trip_pointer _ _ _ _ Sv Hb) as (v' & U & Sd). apply same_no_maps in Sd; [|apply no_maps_response]. subst v'. exact U.
Qed.
Theorem response_round r : response_fits r ->
  exists b ps', marshal_response r = EOk b /\ unmarshal_response b = DOk (VPtr (response_val (with_peers ps' r))) [] (zlen b) /\
    match rs_peers r, ps' with
    | None, None => True
    | Some ps, Some ps' => client_view ps ps'
    | _, _ => False
    end.
Proof.
  intros F. 
  destruct (rs_peers r) as [[c l]|] eqn:Ep.
  2: { destruct (plain_round r F) as (b & M & U). { unfold plain_view. rewrite Ep. exact I. } exists b, None. split; [exact M|]. split; [|exact I].
       assert (with_peers None r = r) as -> by (destruct r; cbn in Ep; subst; reflexivity). exact U. }
  destruct c.
  - destruct F as (Fs & Fi & Fp). rewrite Ep in Fp. destruct Fp as [L Fv]. cbn [ps_list] in L, Fv.
    destruct (compact_general l Fv) as (c & l' & E1 & E2 & E3 & E4 & E5).
    set (ps' := {| ps_compact := true; ps_list := l' |}).
    assert (peers_marshal (Some (peers_val {| ps_compact := true; ps_list := l |})) = peers_marshal (Some (peers_val ps'))) as Em.
    { unfold peers_marshal. rewrite !peers_of_peers_val. cbn [ps' ps_compact ps_list]. rewrite E1, E5. reflexivity. }
    assert (Forall (fun p => p_id p = [] /\ 0 <= p_port p < 65536 /\ exists a b c d, p_ip p = show_v4 [a; b; c; d]) l') as Nm.
    { clear - E4. induction E4 as [|p p' l l' (ip & a & b & c & d & P & Q & D & Po & I) F2 IH]; constructor; [|exact IH].
      split; [exact I|]. split; [rewrite Po; apply Z.mod_pos_bound; lia|]. exists a, b, c, d. apply dotted_show. exact D. }
    destruct (plain_round (with_peers (Some ps') r)) as (b & M & U).
    { split; [exact Fs|]. split; [exact Fi|]. subst ps'. cbn [with_peers rs_peers]. unfold sendable. cbn [ps_compact ps_list]. split.
      - assert (zlen l' = zlen l) as ->; [|exact L]. unfold zlen. f_equal. clear - E4. induction E4; cbn; auto.
      - eapply Forall_impl; [|exact Nm]. intros p (_ & _ & a & b & c0 & d & ->). rewrite parse_ip_show. exists (ipv4 [a; b; c0; d]), [a; b; c0; d]. auto. }
    { unfold plain_view. cbn [with_peers rs_peers ps' ps_list]. intros _. exact Nm. }
    exists b, (Some ps'). split; [|split; [exact U|split; [reflexivity|exact E4]]].
    unfold marshal_response in *. rewrite <- M.
    assert (vdepth (VPtr (response_val r)) < 10)%nat as D1 by (cbn [vdepth]; pose proof (vdepth_response r); lia).
    assert (vdepth (VPtr (response_val (with_peers (Some ps') r))) < 10)%nat as D2 by (cbn [vdepth]; pose proof (vdepth_response (with_peers (Some ps') r)); lia).
    rewrite (marshal_eq tracker_customs 10 _ _ _ eq_refl D1), (marshal_eq tracker_customs 10 _ _ _ eq_refl D2).
    rewrite !encode_resp_ptr. apply (encode_resp_peers tracker_customs 7 _ _ r _ ps' eq_refl Ep Em).
  - destruct (plain_round r F) as (b & M & U). { unfold plain_view. rewrite Ep. discriminate. }
    exists b, (Some {| ps_compact := false; ps_list := l |}). split; [exact M|]. split; [|split; reflexivity].
    assert (with_peers (Some {| ps_compact := false; ps_list := l |}) r = r) as -> by (destruct r; cbn in Ep; subst; reflexivity). exact U.
Qed.
