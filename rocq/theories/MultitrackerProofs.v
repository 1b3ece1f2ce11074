From Verif Require Import GoBase Strconv BencTypes BencFields BencEncode BencDecode BencSpec BencEncSpec BencFieldSpec BencRoundSpec BencPanicSpec
  GoBaseProofs StrconvProofs BencSpecProofs BencConsumeProofs BencDecodeEqs BencDecodeProofs BencFieldsProofs BencFuelProofs
  BencApiProofs BencPanicProofs BencReuseSpec BencReuseProofs Metainfo MetainfoProofs Tracker TrackerSpec TrackerProofs Multitracker MultitrackerSpec.
From Coq Require Import Permutation.

(** *** C48 *)
Section Get.
Context {T R E : Type}.
Variable ask : nat -> T -> R + E.
Lemma promote x (a b : list T) : set_first x (copy_down (List.length a) (a ++ x :: b)) = x :: a ++ b.
Proof.
  unfold copy_down. rewrite (firstn_app (List.length a)), firstn_all, Nat.sub_diag. cbn [firstn]. rewrite app_nil_r.
  rewrite skipn_app. rewrite (skipn_all2 a) by lia. replace (S (List.length a) - List.length a)%nat with 1%nat by lia. cbn [skipn app].
  destruct a; reflexivity.
Qed.
Lemma all_fail_app l l' n : all_fail ask n (l ++ l') <-> all_fail ask n l /\ all_fail ask (n + List.length l) l'.
Proof.
  revert n. induction l as [|t l IH]; intros n; cbn [app all_fail List.length]; [rewrite Nat.add_0_r; tauto|].
  rewrite IH. replace (S n + List.length l)%nat with (n + S (List.length l))%nat by lia. tauto.
Qed.
Definition last_err (g g' : got R E) (n : nat) (l : list T) : Prop :=
  match rev l with [] => g' = g | t :: _ => exists e, ask (n + List.length l - 1) t = inr e /\ g' = GotErr e end.
Lemma last_err_cons g g' n t l e : ask n t = inr e -> last_err (GotErr e) g' (S n) l -> last_err g g' n (t :: l).
Proof.
  unfold last_err. cbn [rev]. intros A H. destruct (rev l) as [|u l'] eqn:Er.
  - cbn [app]. assert (l = []) as -> by (rewrite <- (rev_involutive l), Er; reflexivity). exists e. cbn. replace (n + 1 - 1)%nat with n by lia. auto.
  - cbn [app List.length]. replace (n + S (List.length l) - 1)%nat with (S n + List.length l - 1)%nat by lia. exact H.
Qed.
Lemma last_err_app g g1 g2 n l1 l2 : last_err g g1 n l1 -> last_err g1 g2 (n + List.length l1) l2 -> last_err g g2 n (l1 ++ l2).
Proof.
  unfold last_err. rewrite rev_app_distr. destruct (rev l2) as [|u l'] eqn:Er.
  - assert (l2 = []) as -> by (rewrite <- (rev_involutive l2), Er; reflexivity). cbn [app]. rewrite app_nil_r. intros H ->. exact H.
  - cbn [app]. rewrite app_length, Nat.add_assoc. auto.
Qed.
Lemma tier_spec tier todo : forall n j last asked a g o,
  tier_loop ask n tier j todo last asked = (a, g, o) ->
  (exists pre x post r, todo = pre ++ x :: post /\ a = asked ++ pre ++ [x] /\ all_fail ask n pre /\ ask (n + List.length pre) x = inl r /\ g = GotRes r /\
     o = Some (set_first x (copy_down (j + List.length pre) tier))) \/
  (a = asked ++ todo /\ all_fail ask n todo /\ o = None /\ last_err last g n todo).
Proof.
  induction todo as [|t todo IH]; intros n j last asked a g o H; cbn [tier_loop] in H.
  - injection H as <- <- <-. right. rewrite app_nil_r. repeat split.
  - destruct (ask n t) as [r|e] eqn:A.
    + injection H as <- <- <-. left. exists [], t, todo, r. cbn [app List.length]. rewrite !Nat.add_0_r. repeat split. exact A.
    + apply IH in H as [(pre & x & post & r & -> & -> & F & Sx & -> & ->)|(-> & F & -> & L)].
      * left. exists (t :: pre), x, post, r. cbn [app all_fail List.length]. rewrite <- app_assoc.
        replace (n + S (List.length pre))%nat with (S n + List.length pre)%nat by lia. replace (j + S (List.length pre))%nat with (S j + List.length pre)%nat by lia. repeat split; eauto.
      * right. rewrite <- app_assoc. cbn [app all_fail]. repeat split; eauto. eapply last_err_cons; eassumption.
Qed.
Lemma tiers_spec tiers : forall last asked a g ts,
  tiers_loop ask tiers last asked = (a, g, ts) ->
  (exists before x r, promoted tiers before x ts /\ a = asked ++ before ++ [x] /\ all_fail ask (List.length asked) before /\
     ask (List.length asked + List.length before) x = inl r /\ g = GotRes r) \/
  (a = asked ++ concat tiers /\ all_fail ask (List.length asked) (concat tiers) /\ ts = tiers /\ last_err last g (List.length asked) (concat tiers)).
Proof.
  induction tiers as [|tier tiers IH]; intros last asked a g ts H; cbn [tiers_loop] in H.
  - injection H as <- <- <-. right. cbn. rewrite app_nil_r. repeat split.
  - destruct (tier_loop ask (List.length asked) tier 0 tier last asked) as [[a1 g1] o1] eqn:Et.
    apply tier_spec in Et as [(pre & x & post & r & E1 & -> & F & Sx & -> & ->)|(-> & F & -> & L)].
    + injection H as <- <- <-. left. exists pre, x, r. split; [|auto]. exists [], pre, post, tiers. subst tier. cbn [Nat.add app concat]. rewrite promote. auto.
    + destruct (tiers_loop ask tiers g1 (asked ++ tier)) as [[a2 g2] ts2] eqn:Es. injection H as <- <- <-.
      apply IH in Es as [(before & x & r & (ts1 & p & q & ts3 & -> & -> & ->) & -> & F2 & Sx & ->)|(-> & F2 & -> & L2)]; rewrite app_length in *.
      * left. exists (tier ++ concat ts1 ++ p), x, r. split; [|split; [rewrite <- !app_assoc; reflexivity|split; [|split; [|reflexivity]]]].
        -- exists (tier :: ts1), p, q, ts3. cbn [app concat]. rewrite <- app_assoc. auto.
        -- apply all_fail_app. auto.
        -- rewrite (app_length tier). rewrite Nat.add_assoc. exact Sx.
      * right. cbn [concat]. rewrite <- app_assoc. split; [reflexivity|]. split; [apply all_fail_app; auto|]. split; [reflexivity|]. eapply last_err_app; eassumption.
Qed.
Theorem get_spec tiers a g ts : mt_get ask tiers = (a, g, ts) ->
  (exists before x r, promoted tiers before x ts /\ a = before ++ [x] /\ all_fail ask 0 before /\ ask (List.length before) x = inl r /\ g = GotRes r) \/
  (a = concat tiers /\ all_fail ask 0 a /\ ts = tiers /\ match rev a with [] => g = GotNothing | t :: _ => exists e, ask (List.length a - 1) t = inr e /\ g = GotErr e end).
Proof. intros H. apply tiers_spec in H as [H|(-> & F & -> & L)]; [left; exact H|right]. cbn [app]. auto. Qed.
End Get.
Lemma promoted_perm {T} (ts : list (list T)) b x ts' : promoted ts b x ts' -> Forall2 (@Permutation T) ts ts'.
Proof.
  intros (t1 & p & q & t2 & -> & -> & _). apply Forall2_app; [induction t1; constructor; auto|]. constructor; [symmetry; apply Permutation_middle|induction t2; constructor; auto].
Qed.
Lemma perm_refl {T} (ts : list (list T)) : Forall2 (@Permutation T) ts ts.
Proof. induction ts; constructor; auto. Qed.
Lemma perm_trans {T} (a b c : list (list T)) : Forall2 (@Permutation T) a b -> Forall2 (@Permutation T) b c -> Forall2 (@Permutation T) a c.
Proof. intros H. revert c. induction H; intros c K; inversion K; subst; constructor; eauto using Permutation_trans. Qed.
Theorem calls_perm {T R E} (ts ts' : list (list T)) : @after_calls T R E ts ts' -> Forall2 (@Permutation T) ts ts'.
Proof.
  induction 1 as [|ask ts' H IH]; [apply perm_refl|]. eapply perm_trans; [exact IH|].
  destruct (mt_get ask ts') as [[a g] t2] eqn:Eg. cbn [snd]. apply get_spec in Eg as [(b & x & r & P & _)|(_ & _ & -> & _)]; [eapply promoted_perm; exact P|apply perm_refl].
Qed.

(** *** Shuffle *)
Lemma swap_perm {T} (d : T) i j l : (i < List.length l)%nat -> (j < List.length l)%nat -> Permutation l (swap_nth d i j l).
Proof.
  intros Hi Hj. apply Permutation_sym. eapply Permutation_trans; [|apply Permutation_refl'; symmetry].
  2: { instantiate (1 := map (fun k => nth k l d) (seq 0 (List.length l))). apply nth_ext with (d := d) (d' := d); [rewrite map_length, seq_length; reflexivity|].
       intros n Hn. rewrite (nth_indep (map (fun k => nth k l d) (seq 0 (List.length l))) d (nth O l d)) by (rewrite map_length, seq_length; exact Hn).
       rewrite (map_nth (fun k => nth k l d) (seq 0 (List.length l)) O n). rewrite seq_nth by exact Hn. reflexivity. }
  unfold swap_nth. set (s := fun k => if Nat.eqb k i then j else if Nat.eqb k j then i else k).
  replace (map _ (seq 0 (List.length l))) with (map (fun k => nth k l d) (map s (seq 0 (List.length l)))).
  2: { rewrite map_map. apply map_ext. intros k. unfold s. destruct (Nat.eqb k i); [reflexivity|]. destruct (Nat.eqb k j); reflexivity. }
  apply Permutation_map. apply NoDup_Permutation_bis; [|rewrite map_length; lia|].
  - apply FinFun.Injective_map_NoDup; [|apply seq_NoDup]. intros a b. unfold s.
    destruct (Nat.eqb_spec a i), (Nat.eqb_spec b i), (Nat.eqb_spec a j), (Nat.eqb_spec b j); congruence.
  - intros k Hk. apply in_map_iff in Hk as (m & <- & Hm). apply in_seq in Hm. apply in_seq. unfold s. destruct (Nat.eqb m i); [lia|]. destruct (Nat.eqb m j); lia.
Qed.
Lemma shuffle_loop_perm {T} rnd (d : T) i : forall l, (i < List.length l)%nat -> Permutation l (shuffle_loop rnd d i l).
Proof.
  induction i as [|i IH]; intros l H; cbn [shuffle_loop]; [apply Permutation_refl|].
  pose proof (Nat.mod_upper_bound (rnd (S i)) (S (S i)) ltac:(lia)) as B.
  assert (Permutation l (swap_nth d (S i) (rnd (S i) mod S (S i)) l)) as P by (apply swap_perm; lia).
  eapply Permutation_trans; [exact P|]. apply IH. rewrite <- (Permutation_length P). lia.
Qed.
Theorem shuffle_perm {T} rnd (l : list T) : Permutation l (shuffle rnd l).
Proof. destruct l as [|d l]; [constructor|]. apply shuffle_loop_perm. cbn [List.length]. lia. Qed.
Theorem new_tiers_perm {T} rnd (x : T) al : Forall2 (@Permutation T) (match al with [] => [[x]] | _ => al end) (new_tiers rnd x al).
Proof.
  unfold new_tiers. set (l := match al with [] => [[x]] | _ => al end). clearbody l. generalize O. induction l as [|t l IH]; intros n; cbn [List.length seq combine map]; constructor; auto. apply shuffle_perm.
Qed.

(** *** C31 *)
Lemma plain_no_panic : customs_no_panic plain_customs.
Proof. intros id v b. discriminate. Qed.
Lemma ascending_nodup ks : ascending ks -> NoDup ks.
Proof.
  unfold ascending. induction 1 as [|k ks S IH F]; constructor; auto. intros H. rewrite Forall_forall in F. apply F in H. rewrite bytes_ltb_irrefl in H. discriminate.
Qed.
Lemma map_get_any k x m : NoDup (map fst m) -> In (k, x) m -> map_get k (map (fun p => (fst p, any_of (snd p))) m) = any_of x.
Proof.
  intros N H. unfold map_get. rewrite (in_assoc k (any_of x)); [reflexivity| |].
  - rewrite map_map. cbn [fst]. exact N.
  - apply in_map_iff. exists (k, x). auto.
Qed.
Lemma map_get_any_inv k m : (exists x, In (k, x) m /\ map_get k (map (fun p => (fst p, any_of (snd p))) m) = any_of x) \/
  map_get k (map (fun p => (fst p, any_of (snd p))) m) = VNil.
Proof.
  unfold map_get. destruct (assoc k (map _ m)) as [v|] eqn:E; [left|right; reflexivity]. apply assoc_in in E. apply in_map_iff in E as ([k' x] & [= -> <-] & H). eauto.
Qed.
Lemma as_string_any x s : as_string (any_of x) = Some s -> x = BStr s.
Proof. destruct x; cbn; try discriminate. congruence. Qed.
Lemma as_int_any x s : as_int (any_of x) = Some s -> x = BInt s.
Proof. destruct x; cbn; try discriminate. congruence. Qed.
Lemma parse_peer_shaped v : b_sorted v -> (parse_peer (any_of v) <> None <-> peer_shaped v).
Proof.
  intros B. split.
  - intros H. destruct v as [z|s|l|m]; try (cbn in H; congruence). cbn [any_of] in H. unfold any_map, parse_peer in H.
    destruct (as_string (map_get (bs "peer id") _)) as [i|] eqn:E1; [|congruence]. destruct (as_string (map_get (bs "ip") _)) as [a|] eqn:E2; [|congruence].
    destruct (as_int (map_get (bs "port") _)) as [p|] eqn:E3; [|congruence]. exists m, i, a, p. split; [reflexivity|].
    destruct (map_get_any_inv (bs "peer id") m) as [(x1 & I1 & G1)|G1]; rewrite G1 in E1; [|discriminate]. apply as_string_any in E1. subst x1.
    destruct (map_get_any_inv (bs "ip") m) as [(x2 & I2 & G2)|G2]; rewrite G2 in E2; [|discriminate]. apply as_string_any in E2. subst x2.
    destruct (map_get_any_inv (bs "port") m) as [(x3 & I3 & G3)|G3]; rewrite G3 in E3; [|discriminate]. apply as_int_any in E3. subst x3. auto.
  - intros (m & i & a & p & -> & I1 & I2 & I3). cbn [b_sorted] in B. destruct B as [B _].
    assert (NoDup (map fst m)) as N. { inversion B; subst. apply ascending_nodup. assumption. }
    cbn [any_of]. unfold any_map, parse_peer. rewrite (map_get_any _ _ _ N I1), (map_get_any _ _ _ N I2), (map_get_any _ _ _ N I3). discriminate.
Qed.
Lemma parse_peers_none l : parse_peers l = None <-> exists v, In v l /\ parse_peer v = None.
Proof.
  induction l as [|v l IH]; cbn [parse_peers In]; [split; [discriminate|intros (v & [] & _)]|].
  destruct (parse_peer v) as [p|] eqn:E.
  - destruct (parse_peers l); cbn [option_map]; [split; [discriminate|]|split; auto].
    + intros (w & [->|H] & K); [congruence|]. assert (exists v, In v l /\ parse_peer v = None) as X by eauto. apply IH in X. discriminate.
    + intros _. destruct IH as [IH _]. destruct (IH eq_refl) as (w & H & K). eauto.
  - split; [eauto|auto].
Qed.
Lemma list_sorted l : b_sorted (BList l) <-> Forall b_sorted l.
Proof. cbn [b_sorted]. induction l as [|x l IH]; cbn [fold_right]; [split; auto|]. rewrite Forall_cons_iff. tauto. Qed.
Theorem peers_panic old data : peers_unmarshal (Some old) data = UPanic -> bad_length data \/
  exists l out rest v, data = out ++ rest /\ lax (BList l) out /\ In v l /\ ~ peer_shaped v.
Proof.
  unfold peers_unmarshal. pose proof (fun v r o => any_inv plain_customs data v r o) as AI. pose proof (unmarshal_panic plain_customs plain_no_panic TAny VNil data) as UP.
  pose proof (unmarshal_no_fuel plain_customs TAny VNil data) as NF.
  revert AI UP NF. generalize (unmarshal plain_customs TAny VNil data). intros d AI UP NF H.
  destruct d as [v r o|v e| |]; [|discriminate| |congruence].
  - destruct (AI _ _ _ eq_refl) as (bv & out & L & -> & -> & ->). destruct bv as [z|s|l|m]; cbn [any_of] in H; try discriminate.
    + destruct (parse_compact_peers s); discriminate.
    + unfold any_slice in H. destruct (parse_peers (map any_of l)) as [ps|] eqn:E; [discriminate|]. right.
      apply parse_peers_none in E as (v & Hv & E). apply in_map_iff in Hv as (b & <- & Hb). exists l, out, r, b. split; [reflexivity|]. split; [exact L|]. split; [exact Hb|].
      intros P. assert (b_sorted b) as B. { pose proof (gram_sorted _ _ _ L) as Q. apply list_sorted in Q. rewrite Forall_forall in Q. auto. }
      apply (parse_peer_shaped b B) in P. congruence.
  - left. apply UP; [|reflexivity]. apply rd_any_nil. reflexivity.
Qed.
Theorem peers_panic_conv old l out rest v : lax (BList l) out -> In v l -> ~ peer_shaped v -> peers_unmarshal (Some old) (out ++ rest) = UPanic.
Proof.
  intros L H N. unfold peers_unmarshal. rewrite (any_ok _ _ _ _ L). cbn [any_of]. unfold any_slice.
  assert (parse_peers (map any_of l) = None) as ->; [|reflexivity]. apply parse_peers_none. exists (any_of v). split; [apply in_map; exact H|].
  destruct (parse_peer (any_of v)) eqn:E; [|reflexivity]. exfalso. apply N. apply parse_peer_shaped; [|congruence].
  pose proof (gram_sorted _ _ _ L) as Q. apply list_sorted in Q. rewrite Forall_forall in Q. auto.
Qed.
Lemma ready_response : ready response_ty (zero response_ty).
Proof.
  eapply rd_struct; try reflexivity. intros j a ft x H1 H2. right.
  destruct j as [|[|[|[|[|[|[|[|j]]]]]]]]; cbn in H1, H2; try (injection H1 as <- <-; injection H2 as <-); [| | | | | | | |destruct j; discriminate].
  all: split; [left; reflexivity|]; split; [cbn; discriminate|].
  3: right; right; eexists; repeat split; apply rd_method; reflexivity.
  all: left; split; [reflexivity|]; first [apply rd_str; reflexivity|eapply rd_int; reflexivity].
Qed.
Lemma bad_mid a b r : bad_length b -> bad_length (a ++ b ++ r).
Proof. intros (x & l & y & n & -> & G & N). exists (a ++ x), l, (y ++ r), n. rewrite <- !app_assoc. cbn [app]. auto. Qed.
Lemma tracker_unmarsh id v b : c_unmarsh tracker_customs id (Some v) b = UPanic -> peers_unmarshal (Some v) b = UPanic.
Proof.
  change (c_unmarsh tracker_customs id (Some v) b) with (if Nat.eqb id peers_id then peers_unmarshal (Some v) b else UErr v).
  generalize (peers_unmarshal (Some v) b). intros u. destruct (Nat.eqb id peers_id); [auto|discriminate].
Qed.
Lemma response_blame b : unmarshal_response b = DPanic -> blame tracker_customs b.
Proof. exact (unmarshal_blame tracker_customs response_ty (zero response_ty) b ready_response). Qed.
Theorem response_panic b : unmarshal_response b = DPanic -> bad_length b \/ misshapen_list b.
Proof.
  intros H. destruct (response_blame b H) as [B|(a & p & r & id & v & -> & U)]; [auto|].
  destruct (peers_panic _ _ (tracker_unmarsh _ _ _ U)) as [B|(l & out & rest & w & -> & L & I & N)].
  - left. apply bad_mid, B.
  - right. exists l, out, a, (rest ++ r), w. rewrite <- app_assoc. auto.
Qed.
Lemma sf_peers : stands_for response_ty [2%nat] (bs "peers") (TPtr peers_ty).
Proof.
  split; [eexists; split; reflexivity|]. intros q (a & ft & L & K) N. destruct q as [|j [|j' q]]; [discriminate| |cbn; lia].
  exfalso. destruct j as [|[|[|[|[|[|[|[|j]]]]]]]]; try congruence; try (cbn in L; injection L as <- <-; discriminate K).
  cbn in L. destruct j; discriminate.
Qed.
Lemma sf_interval : stands_for response_ty [1%nat] (bs "interval") (TInt WInt).
Proof.
  split; [eexists; split; reflexivity|]. intros q (a & ft & L & K) N. destruct q as [|j [|j' q]]; [discriminate| |cbn; lia].
  exfalso. destruct j as [|[|[|[|[|[|[|[|j]]]]]]]]; try congruence; try (cbn in L; injection L as <- <-; discriminate K).
  cbn in L. destruct j; discriminate.
Qed.
Lemma unmarshal_int_shape C w old inp x rest off : unmarshal C (TInt w) old inp = DOk (VPtr x) rest off -> exists z, x = VInt z.
Proof.
  intros H. apply unmarshal_run in H as (n & H). destruct n as [|n]; [discriminate|]. rewrite decode_S in H. cbn [is_ptr under negb andb impl] in H.
  apply dmap_ok in H as (v & H & [= ->]). destruct n as [|n]; [discriminate|]. rewrite decode_S in H. cbn [is_ptr under negb andb impl ptr_impl fl_addr fl_elem] in H.
  destruct inp as [|c inp]; [discriminate|].
  repeat match type of H with context [match ?q with _ => _ end] => destruct q; try discriminate end; injection H as <- _ _; eauto.
Qed.
Lemma in_keys (ks ts : list bytes) (k : bytes) : List.length ts = List.length ks -> In k ks -> exists t, In (k, t) (combine ks ts).
Proof.
  revert ts. induction ks as [|k' ks IH]; intros ts L I; [destruct I|]. destruct ts as [|t ts]; [discriminate|].
  destruct I as [->|I]; [exists t; left; reflexivity|]. destruct (IH ts) as (ib & ?); [cbn in L; lia|exact I|]. exists ib. right. assumption.
Qed.
Lemma response_eq b : unmarshal_response b = unmarshal tracker_customs response_ty (zero response_ty) b.
Proof. reflexivity. Qed.
Lemma response_run b w rest off : unmarshal_response b = DOk w rest off -> unmarshal tracker_customs response_ty (zero response_ty) b = DOk w rest off.
Proof. rewrite response_eq. intros H. exact H. Qed.
Lemma response_ptr b w rest off : unmarshal_response b = DOk w rest off -> exists v, w = VPtr v.
Proof.
  intros H0. pose proof (response_run _ _ _ _ H0) as H1. destruct (unmarshal_run _ _ _ _ _ H1) as (n & H). destruct n as [|n]; [discriminate|]. rewrite decode_S in H. cbn [is_ptr under negb andb impl response_ty] in H.
  apply dmap_ok in H as (v & _ & ->). eauto.
Qed.
Lemma response_fields b v rest off : unmarshal_response b = DOk (VPtr v) rest off ->
  exists ks kts ts, document b ks kts ts rest /\
    (In (bs "peers") ks -> exists x, field_of 2 v = VPtr x) /\
    ((exists z tx, In (bs "interval", "i"%byte :: tx ++ ["e"%byte]) (combine ks ts) /\ go_int z tx /\ field_of 1 v = VInt z) \/
     ~ In (bs "interval") ks /\ field_of 1 v = VInt 0).
Proof.
  intros H0. pose proof (response_run _ _ _ _ H0) as H. destruct (struct_reuse tracker_customs response_ty (zero response_ty) b v rest off eq_refl eq_refl ready_response H)
    as (ks & kts & ts & A & Lk & Ll & Vt & E & Un & In').
  exists ks, kts, ts. split; [unfold document; auto|]. split.
  - intros I. destruct (in_keys ks ts _ Ll I) as (tx & Htx). destruct (In' _ _ _ _ sf_peers eq_refl Htx) as (x & _ & F). exists x.
    destruct v; try discriminate. cbn [field_at] in F. unfold field_of. erewrite nth_error_nth; [reflexivity|]. exact F.
  - destruct (in_dec bytes_eq_dec (bs "interval") ks) as [I|N].
    + left. destruct (in_keys ks ts _ Ll I) as (tx & Htx). destruct (In' _ _ _ _ sf_interval eq_refl Htx) as (x & U & F).
      cbn [deref_ty under] in U. destruct (unmarshal_int_shape _ _ _ _ _ _ _ U) as (z & ->). apply int64_exact in U as (txt & -> & G); [|auto].
      exists z, txt. split; [exact Htx|]. split; [exact G|]. destruct v; try discriminate. cbn [field_at] in F. unfold field_of. erewrite nth_error_nth; [reflexivity|]. exact F.
    + right. split; [exact N|]. destruct (Un _ _ _ sf_interval N) as [U|[U _]]; [|discriminate]. destruct v; try discriminate. cbn [field_at] in U. unfold field_of.
      erewrite nth_error_nth; [reflexivity|]. exact U.
Qed.
Theorem start_panic b : start_on_body (Some b) = Panic ->
  bad_length b \/ misshapen_list b \/
  exists ks kts ts rest, document b ks kts ts rest /\
    (~ In (bs "peers") ks \/ ~ In (bs "interval") ks \/
     exists z tx, In (bs "interval", "i"%byte :: tx ++ ["e"%byte]) (combine ks ts) /\ go_int z tx /\ ~ 0 < wrap_s 64 (z * 1000000000)).
Proof.
  unfold start_on_body, tracker_get. pose proof (response_panic b) as RP. pose proof (response_fields b) as RF.
  pose proof (unmarshal_no_fuel tracker_customs response_ty (zero response_ty) b) as NF. rewrite <- response_eq in NF.
  pose proof (response_ptr b) as PT.
  revert RP RF NF PT. generalize (unmarshal_response b). intros d RP RF NF PT H.
  destruct d as [w r o|w e| |]; [|discriminate| |congruence]; [|destruct RP; auto].
  destruct (PT _ _ _ eq_refl) as (v & ->). right. right. destruct (RF _ _ _ eq_refl) as (ks & kts & ts & D & P & I). exists ks, kts, ts, r. split; [exact D|].
  destruct (in_dec bytes_eq_dec (bs "peers") ks) as [Ip|Np]; [|auto]. right. destruct (P Ip) as (x & Fp).
  assert (use_start (GotRes v) = Panic) as H' by (destruct (field_of 0 v); try discriminate H; match type of H with context [match ?s with [] => _ | _ => _ end] => destruct s end; [exact H|discriminate H]).
  clear H. rename H' into H. cbn [use_start] in H. rewrite Fp in H.
  destruct I as [(z & tx & Hi & G & Fi)|[N _]]; [|auto]. right. exists z, tx. split; [exact Hi|]. split; [exact G|]. rewrite Fi in H.
  pose proof (go_int_range _ _ G) as R. cbv zeta in H. replace (wrap_s 64 z) with z in H by (symmetry; exact (wrap_int64 z R)). destruct (0 <? wrap_s 64 (z * 1000000000)) eqn:W; [discriminate|]. apply Z.ltb_ge in W. lia.
Qed.
Theorem start_period b d : start_on_body (Some b) = Ok d ->
  exists ks kts ts rest z tx, document b ks kts ts rest /\ In (bs "interval", "i"%byte :: tx ++ ["e"%byte]) (combine ks ts) /\ go_int z tx /\
    0 < d /\ d = wrap_s 64 (z * 1000000000) /\ (- 9223372036 <= z <= 9223372036 -> d = z * 1000000000).
Proof.
  unfold start_on_body, tracker_get. pose proof (response_fields b) as RF. pose proof (response_ptr b) as PT.
  revert RF PT. generalize (unmarshal_response b). intros r RF PT H.
  destruct r as [w r o|w e| |]; try discriminate. destruct (PT _ _ _ eq_refl) as (v & ->). destruct (RF _ _ _ eq_refl) as (ks & kts & ts & D & P & I).
  assert (use_start (GotRes v) = Ok d) as H' by (destruct (field_of 0 v); try discriminate H; match type of H with context [match ?s with [] => _ | _ => _ end] => destruct s end; [exact H|discriminate H]).
  clear H. rename H' into H. cbn [use_start] in H. destruct (field_of 2 v); try discriminate.
  destruct I as [(z & tx & Hi & G & Fi)|[N Fi]]; rewrite Fi in H; [|vm_compute in H; discriminate].
  exists ks, kts, ts, r, z, tx. split; [exact D|]. split; [exact Hi|]. split; [exact G|].
  pose proof (go_int_range _ _ G) as R. cbv zeta in H. replace (wrap_s 64 z) with z in H by (symmetry; exact (wrap_int64 z R)).
  destruct (0 <? wrap_s 64 (z * 1000000000)) eqn:W; [|discriminate]. apply Z.ltb_lt in W. injection H as <-.
  split; [exact W|]. split; [reflexivity|]. intros Z. apply wrap_s_small; [lia|]. change (2 ^ (64 - 1)) with 9223372036854775808. lia.
Qed.

(** *** C66 *)
Lemma sf_failure : stands_for response_ty [0%nat] (bs "failure reason") TStr.
Proof.
  split; [eexists; split; reflexivity|]. intros q (a & ft & L & K) N. destruct q as [|j [|j' q]]; [discriminate| |cbn; lia].
  exfalso. destruct j as [|[|[|[|[|[|[|[|j]]]]]]]]; try congruence; try (cbn in L; injection L as <- <-; discriminate K).
  cbn in L. destruct j; discriminate.
Qed.
Lemma unmarshal_str C old inp x rest off : unmarshal C TStr old inp = DOk (VPtr x) rest off -> exists s t, x = VStr s /\ lax_str s t /\ inp = t ++ rest.
Proof.
  intros H. apply unmarshal_run in H as (n & H). destruct n as [|n]; [discriminate|]. rewrite decode_S in H. cbn [is_ptr under negb andb impl] in H.
  apply dmap_ok in H as (v & H & [= ->]). destruct n as [|n]; [discriminate|]. rewrite decode_S in H. cbn [is_ptr under negb andb impl ptr_impl fl_addr fl_elem] in H.
  destruct inp as [|c inp]; [discriminate|].
  repeat match type of H with context [match ?q with _ => _ end] => destruct q eqn:?; try discriminate end; injection H as <- <- _;
  match goal with R : read_str _ _ = SOk _ _ _ _ |- _ => apply read_str_ok in R as (E & L & _) end; eauto.
Qed.
Theorem accepted_response b v : tracker_get (Some b) = Ok v ->
  exists ks kts ts rest, document b ks kts ts rest /\ forall t, In (bs "failure reason", t) (combine ks ts) -> lax_str [] t.
Proof.
  unfold tracker_get. pose proof (response_run b) as RR. pose proof (response_ptr b) as PT. revert RR PT. generalize (unmarshal_response b). intros d RR PT H.
  destruct d as [w r o|w e| |]; try discriminate. destruct (PT _ _ _ eq_refl) as (v' & ->). specialize (RR _ _ _ eq_refl).
  destruct (struct_reuse tracker_customs response_ty (zero response_ty) b v' r o eq_refl eq_refl ready_response RR) as (ks & kts & ts & A & Lk & Ll & Vt & E & Un & In').
  exists ks, kts, ts, r. split; [unfold document; auto|]. intros t Ht. destruct (In' _ _ _ _ sf_failure eq_refl Ht) as (x & U & F).
  cbn [deref_ty under] in U. destruct (unmarshal_str _ _ _ _ _ _ U) as (s & t' & -> & L & ->). rewrite app_nil_r.
  assert (field_of 0 v' = VStr s) as F0. { destruct v'; try discriminate. cbn [field_at] in F. unfold field_of. erewrite nth_error_nth; [reflexivity|]. exact F. }
  rewrite F0 in H. destruct s as [|c s]; [exact L|discriminate].
Qed.
Lemma document_dict b ks kts ts rest : document b ks kts ts rest ->
  exists m out, any_order (BDict m) out /\ b = out ++ rest /\ map fst m = ks /\ Forall2 lax_typed (map snd m) ts.
Proof.
  intros (_ & Lk & Ll & Vt & ->).
  assert (exists vs, Forall2 lax_typed vs ts) as (vs & Fv). { clear - Vt. induction Vt as [|t ts (v & V) F (vs & IH)]; [exists []; constructor|exists (v :: vs); constructor; assumption]. }
  assert (List.length vs = List.length ks) as Lv by (rewrite <- Ll; clear - Fv; induction Fv; cbn; congruence).
  assert (map fst (combine ks vs) = ks /\ map snd (combine ks vs) = vs) as [M1 M2].
  { clear - Lv. revert vs Lv. induction ks as [|k ks IH]; intros [|v vs]; cbn; intros L; try discriminate; [auto|]. injection L as L. destruct (IH _ L) as [-> ->]. auto. }
  exists (combine ks vs). eexists. split; [|split; [|split; [exact M1|rewrite M2; exact Fv]]].
  - apply (gram_dict true (fun _ => True) (combine ks vs) kts ts); [exact I|rewrite M1; exact Lk|rewrite M2]. clear - Fv. induction Fv; constructor; [apply lax_typed_any; assumption|assumption].
  - cbn [app]. rewrite <- app_assoc. reflexivity.
Qed.
Lemma forall2_combine {A B} (R : A -> B -> Prop) (ks : list bytes) vs ts k v : Forall2 R vs ts -> In (k, v) (combine ks vs) -> exists t, In (k, t) (combine ks ts) /\ R v t.
Proof.
  intros F. revert ks. induction F as [|v0 t vs ts H F IH]; intros [|k0 ks]; cbn [combine In]; try tauto. intros [[= -> ->]|I]; [eauto|]. destruct (IH _ I) as (t' & ? & ?). eauto.
Qed.
Theorem failure_reason_error m out rest s v : lax_typed (BDict m) out -> In (bs "failure reason", BStr s) m -> s <> [] -> tracker_get (Some (out ++ rest)) <> Ok v.
Proof.
  intros L I N H. apply accepted_response in H as (ks & kts & ts & rest' & D & F). destruct (document_dict _ _ _ _ _ D) as (m' & out' & L' & E & M1 & M2).
  destruct (gram_unique _ _ _ _ _ _ _ _ _ _ L L' E) as ([= <-] & -> & _). 
  destruct (forall2_combine _ ks _ _ (bs "failure reason") (BStr s) M2) as (t & It & Lt).
  { subst ks. clear - I. induction m as [|[k x] m IH]; [destruct I|]. cbn. destruct I as [[= -> ->]|I]; auto. }
  apply F in It. inversion Lt as [|s' t' Ls _| |]; subst. destruct (lax_str_unique s t [] [] t []) as (E' & _); auto.
Qed.
