From Verif Require Import GoBase Strconv BencTypes BencFields BencEncode BencDecode BencSpec BencFieldSpec BencPanicSpec BencReuseSpec GoBaseProofs StrconvProofs BencSpecProofs
  BencConsumeProofs BencDecodeEqs BencDecodeProofs BencFieldsProofs BencResolveProofs BencFuelProofs BencFrameProofs BencApiProofs BencPanicProofs BencRoundTrip.

Lemma struct_not_ptr t : kind_struct t = true -> under t = TStruct (match under t with TStruct n _ => n | _ => [] end) (struct_fields t).
Proof. unfold kind_struct, struct_fields. destruct (under t); try discriminate. reflexivity. Qed.

Lemma zero_struct t : kind_struct t = true -> zero t = VStruct (map (fun p => zero (snd p)) (struct_fields t)).
Proof.
  unfold kind_struct, struct_fields. destruct t; cbn [under zero]; try discriminate; [reflexivity|].
  destruct t; try discriminate. reflexivity.
Qed.
Lemma zero_ptr t t' : under t = TPtr t' -> zero t = VNil.
Proof. destruct t; cbn [under zero]; try discriminate; [reflexivity|]. destruct t; try discriminate. reflexivity. Qed.

Lemma field_at_zero p : forall t a ft, kind_struct t = true -> leaf_at t p = Some (a, ft) ->
  field_at t p (zero t) = None \/ field_at t p (zero t) = Some (zero ft).
Proof.
  induction p as [|i p IH]; intros t a ft K L; [discriminate|].
  apply leaf_at_step in L as (a0 & ft0 & N & S & L). rewrite kind_struct_deref in N by exact K. rewrite zero_struct by exact K.
  assert (Nz : nth_error (map (fun p => zero (snd p)) (struct_fields t)) i = Some (zero ft0)) by (rewrite nth_error_map, N; reflexivity).
  cbn [field_at]. destruct L as [(-> & Em & -> & ->)|(Np & Em & L)]; [right; exact Nz|].
  destruct p as [|j p]; [congruence|]. rewrite N, Nz.
  destruct (under ft0) eqn:U; try (rewrite (zero_ptr ft0 _ U); left; reflexivity).
  all: apply IH with a; auto.
  all: pose proof (embed_struct _ _ Em) as Ks; unfold deref_ty in Ks; rewrite U in Ks; exact Ks.
Qed.

Lemma field_at_step i j p t l a ft x : nth_error (struct_fields t) i = Some (a, ft) -> nth_error l i = Some x ->
  field_at t (i :: j :: p) (VStruct l) = match under ft, x with
              | TPtr t', VPtr x' => field_at t' (j :: p) x'
              | TPtr _, _ => None
              | _, _ => field_at ft (j :: p) x
              end.
Proof. intros A B. cbn [field_at]. rewrite A, B. reflexivity. Qed.

(** Reading for decoding = [content] of the observed field. *)
Lemma path_content p : forall t v a ft fl, kind_struct t = true -> has_unmarshaler t = false -> ready t v ->
  leaf_at t p = Some (a, ft) -> fl_addr fl = true ->
  path_get p t fl v = Some (deref_ty ft, fl_new, content ft (field_at t p v)) /\ ready (deref_ty ft) (content ft (field_at t p v)).
Proof.
  induction p as [|i p IH]; intros t v a ft fl K U R L A; [discriminate|].
  destruct (ready_struct t v K U R) as (nm & fs & l & Eu & -> & Len & F).
  apply leaf_at_step in L as (a0 & ft0 & N & S & L). rewrite kind_struct_deref in N by exact K.
  assert (Nf : nth_error fs i = Some (a0, ft0)) by (unfold struct_fields in N; rewrite Eu in N; exact N).
  destruct (nth_error l i) as [x|] eqn:Nx.
  2: { apply nth_error_None in Nx. assert (nth_error fs i <> None) by congruence. apply nth_error_Some in H. lia. }
  rewrite (path_get_step _ _ _ _ _ _ _ _ N Nx).
  destruct (F _ _ _ _ Nf Nx) as [B|(E & Hm & V)]; [congruence|].
  assert (Fa : fl_addr (fl_field fl a0) = true) by exact A.
  destruct L as [(-> & Em & -> & ->)|(Np & Em & L)].
  - destruct E as [E|[E _]]; [|congruence]. assert (Sf : fl_field fl a = fl_new) by (unfold fl_field, fl_new; rewrite A, E; reflexivity).
    assert (Se : fl_elem fl_new = fl_new) by reflexivity.
    cbn [field_at]. rewrite Nx, Sf. unfold content, deref_ty.
    destruct V as [(Ip & V)|[(t' & x' & Et & -> & V)|(t' & Et & -> & V)]].
    + unfold is_ptr in Ip. destruct (under ft); try (split; [reflexivity|exact V]). discriminate.
    + rewrite Et. cbn [path_get]. rewrite Se. auto.
    + rewrite Et. cbn [path_get settable fl_new fl_addr fl_ro andb negb]. fold fl_new. rewrite Se. auto.
  - specialize (Hm Em). pose proof (embed_struct _ _ Em) as Ks.
    destruct p as [|j p]; [congruence|].
    assert (FA : field_at t (i :: j :: p) (VStruct l) = match under ft0, x with
              | TPtr t', VPtr x' => field_at t' (j :: p) x'
              | TPtr _, _ => None
              | _, _ => field_at ft0 (j :: p) x
              end) by (cbn [field_at]; rewrite N, Nx; reflexivity).
    rewrite FA. clear FA.
    destruct V as [(Ip & V)|[(t' & x' & Et & -> & V)|(t' & Et & -> & V)]].
    + assert (D : deref_ty ft0 = ft0) by (unfold is_ptr in Ip; unfold deref_ty; destruct (under ft0); try reflexivity; discriminate).
      rewrite D in *. unfold is_ptr in Ip. destruct (under ft0); try discriminate; apply (IH ft0 x a ft (fl_field fl a0) Ks Hm V L Fa).
    + assert (D : deref_ty ft0 = t') by (unfold deref_ty; rewrite Et; reflexivity). rewrite D in *. rewrite Et.
      apply (IH t' x' a ft); auto. destruct (leaf_at_deref ft0 (j :: p)) as [Q|Q]; rewrite D in Q; congruence.
    + destruct E as [E|[_ E]]; [|unfold is_ptr in E; rewrite Et in E; discriminate].
      assert (Sf : settable (fl_field fl a0) = true) by (unfold settable, fl_field; cbn; rewrite A, E; reflexivity).
      assert (D : deref_ty ft0 = t') by (unfold deref_ty; rewrite Et; reflexivity). rewrite D in *. rewrite Et, Sf.
      assert (L' : leaf_at t' (j :: p) = Some (a, ft)) by (destruct (leaf_at_deref ft0 (j :: p)) as [Q|Q]; rewrite D in Q; congruence).
      assert (Cz : content ft None = content ft (field_at t' (j :: p) (zero t'))).
      { destruct (field_at_zero (j :: p) t' a ft Ks L') as [->| ->]; [reflexivity|]. unfold content.
        destruct (under ft) eqn:Uf; try reflexivity. rewrite (zero_ptr ft _ Uf). reflexivity. }
      rewrite Cz. apply (IH t' (zero t') a ft); auto.
Qed.

Lemma field_at_same p : forall t fl v a ft ffl x new, kind_struct t = true -> leaf_at t p = Some (a, ft) ->
  path_get p t fl v = Some (deref_ty ft, ffl, x) -> field_at t p (path_set p t v new) = Some (stored ft new).
Proof.
  induction p as [|i p IH]; intros t fl v a ft ffl x new K L G; [discriminate|].
  apply leaf_at_step in L as (a0 & ft0 & N & S & L). rewrite kind_struct_deref in N by exact K.
  destruct v as [| | | | | | | | |l| |]; try discriminate. destruct (nth_error l i) as [y|] eqn:Ny; [|cbn [path_get] in G; rewrite N, Ny in G; discriminate].
  rewrite (path_get_step _ _ _ _ _ _ _ _ N Ny) in G. cbn [path_set]. rewrite N, Ny.
  assert (Li : (i < List.length l)%nat) by (apply nth_error_Some; congruence).
  destruct L as [(-> & Em & -> & ->)|(Np & Em & L)].
  - cbn [field_at path_set path_get] in *. rewrite list_set_nth_eq by exact Li. unfold stored.
    destruct (under ft) eqn:U; try reflexivity.
    assert (B : forall z, Some (ft, fl_field fl a, z) = Some (deref_ty ft, ffl, x) -> False).
    { intros z [= E _ _]. unfold deref_ty in E. rewrite U in E. pose proof (tdepth_ptr _ _ U). rewrite E in H. lia. }
    destruct y; try (destruct (B _ G)); reflexivity.
  - destruct p as [|j p]; [congruence|]. pose proof (embed_struct _ _ Em) as Ks.
    cbn [field_at]. rewrite N, list_set_nth_eq by exact Li.
    unfold deref_ty in Ks.
    destruct (under ft0) eqn:U; try (eapply IH; eauto; fail).
    assert (L' : leaf_at g (j :: p) = Some (a, ft)).
    { destruct (leaf_at_deref ft0 (j :: p)) as [Q|Q]; unfold deref_ty in Q; rewrite U in Q; [congruence|]. rewrite Ks in Q. discriminate. }
    assert (NG : forall w0, path_get (j :: p) ft0 (fl_field fl a0) w0 = None).
    { intros w0. cbn [path_get]. unfold struct_fields. rewrite U. destruct w0; try reflexivity. destruct j; reflexivity. }
    destruct y; try (rewrite NG in G; discriminate G).
    + destruct (settable (fl_field fl a0)); [|discriminate]. eapply IH; eauto.
    + eapply IH; eauto.
Qed.

Lemma field_at_other p : forall q t fl v new rq a ft y, kind_struct t = true -> leaf_at t p = Some (a, ft) -> leaf_at t q = Some y -> p <> q ->
  path_get q t fl v = Some rq -> untouched ft (field_at t p v) (field_at t p (path_set q t v new)).
Proof.
  induction p as [|i p IH]; intros q t fl v new rq a ft [ya yt] K Lp Lq N G; [discriminate|].
  destruct q as [|j q]; [discriminate|].
  destruct v as [| | | | | | | | |l| |]; try discriminate.
  apply leaf_at_step in Lp as (a0 & ft0 & Np & Sp & Cp). apply leaf_at_step in Lq as (b & gt & Nq & Sq & Cq).
  rewrite (kind_struct_deref _ K) in Np, Nq. cbn [path_set]. rewrite Nq.
  destruct (nth_error l j) as [w|] eqn:Nw; [|cbn [path_get] in G; rewrite Nq, Nw in G; discriminate].
  rewrite (path_get_step _ _ _ _ _ _ _ _ Nq Nw) in G.
  assert (Lj : (j < List.length l)%nat) by (apply nth_error_Some; congruence).
  destruct (Nat.eq_dec i j) as [->|D].
  2: { left. destruct p as [|i' p]; cbn [field_at]; rewrite list_set_nth_neq by congruence; reflexivity. }
  rewrite Np in Nq. injection Nq as -> ->.
  destruct Cp as [(-> & Ep & _)|(Np' & Ep & Lp)], Cq as [(-> & Eq & _)|(Nq' & Eq & Lq)]; try congruence.
  destruct p as [|i' p]; [congruence|]. rewrite (field_at_step _ _ _ _ _ _ _ _ Np Nw).
  erewrite (field_at_step _ _ _ _ _ _ _ _ Np); [|apply list_set_nth_eq; exact Lj].
  assert (N' : i' :: p <> q) by congruence. pose proof (embed_struct _ _ Eq) as Ks. unfold deref_ty in Ks.
  destruct (under gt) eqn:U; try (eapply IH; eauto; fail).
  assert (Lp' : leaf_at g (i' :: p) = Some (a, ft)).
  { destruct (leaf_at_deref gt (i' :: p)) as [Q|Q]; unfold deref_ty in Q; rewrite U in Q; [congruence|]. rewrite Ks in Q. discriminate. }
  assert (Lq' : leaf_at g q = Some (ya, yt)).
  { destruct (leaf_at_deref gt q) as [Q|Q]; unfold deref_ty in Q; rewrite U in Q; [congruence|]. rewrite Ks in Q. discriminate. }
  assert (forall w0, path_get q gt (fl_field fl b) w0 = None) as NG.
  { intros w0. destruct q as [|j' q']; [congruence|]. cbn [path_get]. unfold struct_fields. rewrite U.
    destruct w0; try reflexivity. destruct j'; reflexivity. }
  destruct w; try (rewrite NG in G; discriminate G).
  - destruct (settable (fl_field fl b)); [|discriminate G].
    destruct (IH q g _ _ new _ a ft _ Ks Lp' Lq' N' G) as [E|[E1 E2]].
    + rewrite E. destruct (field_at_zero _ _ _ _ Ks Lp') as [Z|Z]; rewrite Z; [left; reflexivity|right; auto].
    + right. auto.
  - eapply IH; eauto.
Qed.

Lemma untouched_refl ft o : untouched ft o o.
Proof. left. reflexivity. Qed.
Lemma untouched_trans ft o1 o2 o3 : untouched ft o1 o2 -> untouched ft o2 o3 -> untouched ft o1 o3.
Proof. intros [->|[-> ->]] [->|[E ->]]; try (left; reflexivity); try discriminate; right; auto. Qed.

Lemma ascending_more lk k ks : bytes_ltb lk k = true -> ascending (k :: ks) -> ascending (lk :: k :: ks).
Proof.
  intros Lt A. unfold ascending in *. constructor; [exact A|]. inversion A; subst. constructor; [exact Lt|].
  eapply Forall_impl; [|eassumption]. intros x Hx. eapply bytes_ltb_trans; eauto.
Qed.

Section Reuse.
Variable C : customs.

Lemma dec_text_value n t fl old tx v : decode C n t fl old tx 0 = DOk v [] (zlen tx) -> value_text tx.
Proof.
  intros D. apply decode_sound in D as (bv & out & L & E & _). rewrite app_nil_r in E. subst out. exists bv. exact L.
Qed.
Lemma struct_loop n : forall t v lk inp off v' rest off' v0, kind_struct t = true ->
  (forall k f a ft, assoc k (key_to_field t) = Some f -> leaf_at t (f_index f) = Some (a, ft) -> bytes_ltb lk k = true ->
     path_get (f_index f) t fl_new v = Some (deref_ty ft, fl_new, content ft (field_at t (f_index f) v0)) /\
     untouched ft (field_at t (f_index f) v0) (field_at t (f_index f) v)) ->
  decode_struct C n t fl_new v lk inp off = DOk v' rest off' ->
  exists ks kts ts, ascending (lk :: ks) /\ Forall2 lax_str ks kts /\ List.length ts = List.length ks /\ Forall value_text ts /\
    inp = dtext kts ts ++ "e"%byte :: rest /\
    (forall k f a ft, assoc k (key_to_field t) = Some f -> leaf_at t (f_index f) = Some (a, ft) -> bytes_ltb lk k = true -> ~ In k ks ->
        untouched ft (field_at t (f_index f) v0) (field_at t (f_index f) v')) /\
    (forall k f a ft, assoc k (key_to_field t) = Some f -> leaf_at t (f_index f) = Some (a, ft) -> ~ bytes_ltb lk k = true ->
        untouched ft (field_at t (f_index f) v) (field_at t (f_index f) v')) /\
    (forall k tx f a ft, In (k, tx) (combine ks ts) -> assoc k (key_to_field t) = Some f -> leaf_at t (f_index f) = Some (a, ft) ->
        exists x' m, decode C m (deref_ty ft) fl_new (content ft (field_at t (f_index f) v0)) tx 0 = DOk x' [] (zlen tx) /\
          field_at t (f_index f) v' = Some (stored ft x')).
Proof.
  induction n as [|n IH]; intros t v lk inp off v' rest off' v0 K I H; [discriminate|].
  rewrite decode_struct_S in H. destruct inp as [|c inp]; [discriminate|].
  destruct (beqb c "e") eqn:Ec.
  { injection H as <- <- <-. apply beqb_eq in Ec as ->. exists [], [], []. split; [constructor; constructor|]. split; [constructor|]. split; [reflexivity|]. split; [constructor|].
    split; [reflexivity|]. split; [intros; eapply I; eauto|]. split; [intros; apply untouched_refl|]. intros ? ? ? ? ? []. }
  destruct (read_str (c :: inp) off) as [ls key r0 off0| |] eqn:Rs; try discriminate.
  apply read_str_ok in Rs as (E0 & Lk & _). destruct (bytes_ltb lk key) eqn:Lt; cbn [negb] in H; [|discriminate].
  assert (NL : forall k f a ft, assoc k (key_to_field t) = Some f -> leaf_at t (f_index f) = Some (a, ft) -> bytes_ltb key k = true -> bytes_ltb lk k = true).
  { intros. eapply bytes_ltb_trans; eassumption. }
  assert (Sp : forall tx r1 kts ts, r0 = tx ++ r1 -> r1 = dtext kts ts ++ "e"%byte :: rest ->
      c :: inp = dtext ((ls ++ ":"%byte :: key) :: kts) (tx :: ts) ++ "e"%byte :: rest).
  { intros tx r1 kts ts -> ->. rewrite E0. unfold dtext. cbn [combine map fst snd concat]. rewrite <- !app_assoc. reflexivity. }
  destruct (assoc key (key_to_field t)) as [f|] eqn:Ef.
  - pose proof (ktf_assoc _ _ _ Ef) as (_ & a1 & ft1 & L1 & _).
    destruct (I _ _ _ _ Ef L1 Lt) as [G U]. rewrite G in H.
    destruct (decode C n (deref_ty ft1) fl_new (content ft1 (field_at t (f_index f) v0)) r0 off0) as [x' r1 off1| | |] eqn:D; try discriminate.
    pose proof (decode_frame _ _ _ _ _ _ _ _ _ _ D) as (tx & Er & Fr).
    assert (Dx : decode C n (deref_ty ft1) fl_new (content ft1 (field_at t (f_index f) v0)) tx 0 = DOk x' [] (zlen tx)).
    { specialize (Fr []). rewrite app_nil_r in Fr. pose proof (decode_off _ _ _ _ _ _ _ _ _ _ (- off0) Fr) as Q.
      replace (off0 + - off0) with 0 in Q by lia. rewrite Q. f_equal.
      pose proof (decode_sound _ _ _ _ _ _ _ _ _ _ Fr) as (bv & out & _ & Eo & ->). rewrite app_nil_r in Eo. subst out. lia. }
    assert (Oth : forall k f' a ft, assoc k (key_to_field t) = Some f' -> leaf_at t (f_index f') = Some (a, ft) -> k <> key ->
       path_get (f_index f') t fl_new (path_set (f_index f) t v x') = path_get (f_index f') t fl_new v /\
       untouched ft (field_at t (f_index f') v) (field_at t (f_index f') (path_set (f_index f) t v x'))).
    { intros k f' a ft Ef' L' Nk. pose proof (ktf_path_inj _ _ _ _ _ Ef' Ef Nk) as Np.
      split; [eapply path_other; eauto|eapply field_at_other; eauto]. }
    apply (IH _ _ _ _ _ _ _ _ v0) in H as (ks & kts & ts & As & Fk & Ll & Vt & Ei & P1 & P2 & P3); [|exact K|].
    + exists (key :: ks), ((ls ++ ":"%byte :: key) :: kts), (tx :: ts).
      split; [apply ascending_more; assumption|]. split; [constructor; assumption|]. split; [cbn; lia|]. split; [constructor; [eapply dec_text_value; exact Dx|exact Vt]|]. split; [eapply Sp; eauto|].
      split; [|split].
      * intros k f' a ft Ef' L' Lk' Ni. assert (Nk : k <> key) by (intros ->; apply Ni; left; reflexivity).
        destruct (bytes_ltb key k) eqn:B; [apply P1 with k a; auto; intros Q; apply Ni; right; exact Q|].
        eapply untouched_trans; [|apply P2 with k a; auto; congruence].
        eapply untouched_trans; [eapply I; eauto|]. eapply Oth; eauto.
      * intros k f' a ft Ef' L' Lk'. assert (Nk : k <> key) by (intros ->; congruence).
        eapply untouched_trans; [eapply Oth; eauto|]. apply P2 with k a; auto. intros B. apply Lk'. eapply bytes_ltb_trans; eassumption.
      * intros k tx' f' a ft [[= <- <-]|Hin] Ef' L'; [|eapply P3; eauto].
        rewrite Ef in Ef'. injection Ef' as <-. rewrite L1 in L'. injection L' as <- <-.
        exists x', n. split; [exact Dx|].
        destruct (P2 key f a1 ft1 Ef L1) as [E|[E _]]; [rewrite bytes_ltb_irrefl; discriminate| |].
        -- rewrite E. eapply field_at_same; eauto.
        -- rewrite (field_at_same _ _ _ _ _ _ _ _ x' K L1 G) in E. discriminate.
    + intros k f' a ft Ef' L' Lk'. assert (Nk : k <> key) by (intros ->; rewrite bytes_ltb_irrefl in Lk'; discriminate).
      destruct (Oth _ _ _ _ Ef' L' Nk) as [Q1 Q2]. destruct (I _ _ _ _ Ef' L' (NL _ _ _ _ Ef' L' Lk')) as [R1 R2].
      split; [rewrite Q1; exact R1|eapply untouched_trans; eauto].
  - destruct (consume n r0 off0) as [o r1 off1| | |] eqn:D; try discriminate.
    apply consume_sound in D as (Er & _ & Vo).
    apply (IH _ _ _ _ _ _ _ _ v0) in H as (ks & kts & ts & As & Fk & Ll & Vt & Ei & P1 & P2 & P3); [|exact K|].
    + exists (key :: ks), ((ls ++ ":"%byte :: key) :: kts), (o :: ts).
      split; [apply ascending_more; assumption|]. split; [constructor; assumption|]. split; [cbn; lia|]. split; [constructor; [destruct Vo as [bv Vo]; exists bv; apply lax_lax_typed; exact Vo|exact Vt]|]. split; [eapply Sp; eauto|].
      split; [|split].
      * intros k f' a ft Ef' L' Lk' Ni.
        destruct (bytes_ltb key k) eqn:B; [apply P1 with k a; auto; intros Q; apply Ni; right; exact Q|].
        eapply untouched_trans; [eapply I; eauto|apply P2 with k a; auto; congruence].
      * intros k f' a ft Ef' L' Lk'. apply P2 with k a; auto. intros B. apply Lk'. eapply bytes_ltb_trans; eassumption.
      * intros k tx' f' a ft [[= <- <-]|Hin] Ef' L'; [congruence|eapply P3; eauto].
    + intros k f' a ft Ef' L' Lk'. eapply I; eauto.
Qed.

(** Decoding a dictionary into a struct: absent keys leave their fields alone, present
    keys decode their text into the old content of the field. *)
Theorem struct_reuse t old inp v' rest off : kind_struct t = true -> has_unmarshaler t = false -> ready t old ->
  unmarshal C t old inp = DOk (VPtr v') rest off ->
  exists ks kts ts, ascending ks /\ Forall2 lax_str ks kts /\ List.length ts = List.length ks /\ Forall value_text ts /\
    inp = "d"%byte :: concat (map (fun kt => fst kt ++ snd kt) (combine kts ts)) ++ "e"%byte :: rest /\
    (forall p k ft, stands_for t p k ft -> ~ In k ks -> untouched ft (field_at t p old) (field_at t p v')) /\
    (forall p k ft tx, stands_for t p k ft -> is_ptr (deref_ty ft) = false -> In (k, tx) (combine ks ts) ->
        exists x', unmarshal C (deref_ty ft) (content ft (field_at t p old)) tx = DOk (VPtr x') [] (zlen tx) /\
          field_at t p v' = Some (stored ft x')).
Proof.
  intros K U R H. apply unmarshal_run in H as (n & H). destruct n as [|n]; [discriminate|]. rewrite decode_S in H.
  cbn [is_ptr under negb andb] in H.
  assert (Im : impl m_unmarsh (TPtr t) = None).
  { unfold impl. destruct t; auto. unfold has_unmarshaler in U. destruct (m_unmarsh ms); [|reflexivity]. unfold kind_struct in K. unfold is_ptr in U. destruct (under (TNamed id ms t)); discriminate. }
  rewrite Im in H. apply dmap_ok in H as (v1 & H & [= ->]). destruct n as [|n]; [discriminate|]. rewrite decode_S in H.
  change (fl_elem fl_root_val) with fl_new in H.
  assert (Ip : is_ptr t = false) by (unfold is_ptr, kind_struct in *; destruct (under t); try reflexivity; discriminate).
  assert (Pi : ptr_impl m_unmarsh t = None /\ impl m_unmarsh t = None).
  { unfold has_unmarshaler in U. unfold ptr_impl, impl. destruct t; auto; try discriminate. rewrite Ip in U. destruct (m_unmarsh ms) as [[]|]; try discriminate; auto. }
  rewrite Ip in H. cbn [negb andb fl_new fl_addr] in H. fold fl_new in H. destruct Pi as [E1 E2]. rewrite E1, E2 in H.
  rewrite (struct_not_ptr t K) in H. destruct inp as [|c inp]; [discriminate|]. destruct (beqb c "d") eqn:Ec; cbn [negb] in H; [|discriminate].
  apply beqb_eq in Ec as ->.
  apply (struct_loop _ _ _ _ _ _ _ _ _ old) in H as (ks & kts & ts & As & Fk & Ll & Vt & Ei & P1 & P2 & P3); [|exact K|].
  - exists ks, kts, ts. split; [inversion As; assumption|]. split; [exact Fk|]. split; [exact Ll|]. split; [exact Vt|]. split; [rewrite Ei; reflexivity|]. split.
    + intros p k ft ((a & L & Ek) & Un) Ni. destruct (resolve_unique t p k K) as (f & Ef & Ei' & _); [exists a, ft; auto|exact Un|].
      subst p. destruct (bytes_ltb [] k) eqn:Lt; [eapply P1; eauto|]. eapply P2; eauto. congruence.
    + intros p k ft tx ((a & L & Ek) & Un) Ipt Hin. destruct (resolve_unique t p k K) as (f & Ef & Ei' & _); [exists a, ft; auto|exact Un|].
      subst p. destruct (P3 _ _ _ _ _ Hin Ef L) as (x' & m & D & Fa). exists x'. split; [|exact Fa].
      assert (Ds : decs C (deref_ty ft) (fl_elem fl_root_val) (content ft (field_at t (f_index f) old)) tx x').
      { intros rest1 off1. exists m. destruct (decode_frame _ _ _ _ _ _ _ _ _ _ D) as (out & Eo & Fr). rewrite app_nil_r in Eo. subst out.
        rewrite (Z.add_comm off1). exact (decode_off _ _ _ _ _ _ _ _ _ _ off1 (Fr rest1)). }
      destruct (decs_ptr C _ _ _ _ _ Ipt Ds eq_refl [] 0) as (q & Hq). rewrite app_nil_r in Hq.
      eapply unmarshal_eq; [exact Hq|discriminate].
  - intros k f a ft Ef L Lt. split; [|apply untouched_refl]. eapply path_content; eauto.
Qed.

Lemma decs_of n t fl old inp off v rest off' : decode C n t fl old inp off = DOk v rest off' ->
  exists tx, inp = tx ++ rest /\ off' = off + zlen tx /\ decs C t fl old tx v.
Proof.
  intros D. pose proof (decode_frame _ _ _ _ _ _ _ _ _ _ D) as (tx & E & Fr). exists tx. split; [exact E|].
  assert (Eo : off' = off + zlen tx).
  { specialize (Fr []). pose proof (decode_sound _ _ _ _ _ _ _ _ _ _ Fr) as (bv & out & _ & Eo & ->). rewrite !app_nil_r in Eo. subst out. reflexivity. }
  split; [exact Eo|]. intros r1 o1. exists n. pose proof (decode_off _ _ _ _ _ _ _ _ _ _ (o1 - off) (Fr r1)) as Q.
  replace (off + (o1 - off)) with o1 in Q by lia. rewrite Q. f_equal. lia.
Qed.
Lemma decs_unmarshal t old tx v : is_ptr t = false -> decs C t fl_new old tx v -> unmarshal C t old tx = DOk (VPtr v) [] (zlen tx).
Proof.
  intros Ip D. change fl_new with (fl_elem fl_root_val) in D. destruct (decs_ptr C _ _ _ _ _ Ip D eq_refl [] 0) as (q & Hq). rewrite app_nil_r in Hq.
  eapply unmarshal_eq; [exact Hq|discriminate].
Qed.

Lemma slice_loop n : forall et pre post inp off v rest off', decode_slice C n et fl_new pre post inp off = DOk v rest off' ->
  exists ts l', inp = concat ts ++ "e"%byte :: rest /\ v = VSlice (pre ++ l' ++ skipn (List.length ts) post) /\ List.length l' = List.length ts /\
    forall i tx x, nth_error ts i = Some tx -> nth_error l' i = Some x -> decs C et fl_new (nth i post (zero et)) tx x.
Proof.
  induction n as [|n IH]; intros et pre post inp off v rest off' H; [discriminate|]. rewrite decode_slice_S in H.
  destruct inp as [|c inp]; [discriminate|]. destruct (beqb c "e") eqn:Ec.
  { injection H as <- <- <-. apply beqb_eq in Ec as ->. exists [], []. repeat split; auto. intros [|] ? ? [=]. }
  change (settable fl_new) with true in H. cbn iota in H. change (fl_elem fl_new) with fl_new in H.
  destruct post as [|y post].
  - destruct (decode C n et fl_new (zero et) (c :: inp) off) as [x' r1 off1| | |] eqn:D; try discriminate.
    apply IH in H as (ts & l' & E & -> & Ll & F). apply decs_of in D as (tx & Et & _ & D).
    exists (tx :: ts), (x' :: l'). cbn [concat List.length]. rewrite <- app_assoc, <- E, Et. split; [reflexivity|]. split; [rewrite skipn_nil, <- app_assoc; reflexivity|].
    split; [lia|]. intros [|i] t' x; cbn [nth_error nth].
    + intros [= <-] [= <-]. exact D.
    + intros A B. specialize (F i t' x A B). destruct i; exact F.
  - destruct (decode C n et fl_new y (c :: inp) off) as [x' r1 off1| | |] eqn:D; try discriminate.
    apply IH in H as (ts & l' & E & -> & Ll & F). apply decs_of in D as (tx & Et & _ & D).
    exists (tx :: ts), (x' :: l'). cbn [concat List.length]. rewrite <- app_assoc, <- E, Et. split; [reflexivity|]. split; [rewrite <- app_assoc; cbn [app skipn]; reflexivity|].
    split; [lia|]. intros [|i] t' x; cbn [nth_error nth].
    + intros [= <-] [= <-]. exact D.
    + intros A B. exact (F i t' x A B).
Qed.

(** Decoding a list into a slice that held [l]. *)
Theorem slice_reuse et old l inp v' rest off : is_ptr et = false -> kind_uint8 et = false ->
  (old = VSlice l \/ old = VNil /\ l = []) ->
  unmarshal C (TSlice et) old inp = DOk (VPtr v') rest off ->
  exists ts l', inp = "l"%byte :: concat ts ++ "e"%byte :: rest /\ List.length l' = List.length ts /\
    v' = VSlice (l' ++ skipn (List.length ts) l) /\
    forall i tx x, nth_error ts i = Some tx -> nth_error l' i = Some x ->
      unmarshal C et (nth i l (zero et)) tx = DOk (VPtr x) [] (zlen tx).
Proof.
  intros Ip K8 O H. apply unmarshal_run in H as (n & H). destruct n as [|n]; [discriminate|]. rewrite decode_S in H.
  cbn [is_ptr under negb andb impl] in H. apply dmap_ok in H as (v1 & H & [= ->]). destruct n as [|n]; [discriminate|]. rewrite decode_S in H.
  change (fl_elem fl_root_val) with fl_new in H. cbn [is_ptr under negb andb impl ptr_impl fl_new fl_addr] in H. fold fl_new in H.
  rewrite K8 in H. destruct inp as [|c inp]; [discriminate|]. destruct (beqb c "l") eqn:Ec; cbn [negb] in H; [|discriminate]. apply beqb_eq in Ec as ->.
  assert (S : decode_slice C n et fl_new [] l inp (0 + 1) = DOk v1 rest off) by (destruct O as [->|[-> ->]]; exact H).
  apply slice_loop in S as (ts & l' & E & -> & Ll & F). exists ts, l'. split; [rewrite E; reflexivity|]. split; [exact Ll|]. split; [reflexivity|].
  intros i tx x A B. apply decs_unmarshal; [exact Ip|]. eapply F; eauto.
Qed.

Lemma map_loop n : forall et m lk inp off v rest off', decode_map C n et fl_new m lk inp off = DOk v rest off' ->
  exists ks kts ts m', ascending (lk :: ks) /\ Forall2 lax_str ks kts /\ List.length ts = List.length ks /\ inp = dtext kts ts ++ "e"%byte :: rest /\
    v = VMap m' /\ (forall k, ~ In k ks -> assoc k m' = assoc k m) /\
    (forall k tx, In (k, tx) (combine ks ts) -> exists x, unmarshal C et (zero et) tx = DOk (VPtr x) [] (zlen tx) /\ assoc k m' = Some x).
Proof.
  induction n as [|n IH]; intros et m lk inp off v rest off' H; [discriminate|]. rewrite decode_map_S in H.
  destruct inp as [|c inp]; [discriminate|]. destruct (beqb c "e") eqn:Ec.
  { injection H as <- <- <-. apply beqb_eq in Ec as ->. exists [], [], [], m. split; [constructor; constructor|]. repeat split; auto. intros ? ? []. }
  destruct (read_str (c :: inp) off) as [ls key r0 off0| |] eqn:Rs; try discriminate.
  apply read_str_ok in Rs as (E0 & Lk & _). destruct (bytes_ltb lk key) eqn:Lt; cbn [negb] in H; [|discriminate].
  destruct (decode C n (TPtr et) fl_root_val (VPtr (zero et)) r0 off0) as [x' r1 off1| | |] eqn:D; try discriminate.
  destruct x' as [| | | | | | | | | | |x]; try discriminate. cbn [fl_ro fl_new] in H. fold fl_new in H.
  apply IH in H as (ks & kts & ts & m' & As & Fk & Ll & E & -> & P1 & P2). apply decs_of in D as (tx & Et & _ & D).
  assert (NI : ~ In key ks).
  { intros Q. inversion As; subst. rewrite Forall_forall in H2. apply H2 in Q. rewrite bytes_ltb_irrefl in Q. discriminate. }
  exists (key :: ks), ((ls ++ ":"%byte :: key) :: kts), (tx :: ts), m'. split; [apply ascending_more; assumption|]. split; [constructor; assumption|]. split; [cbn; lia|].
  split. { rewrite E0, Et, E. unfold dtext. cbn [combine map fst snd concat]. rewrite <- !app_assoc. reflexivity. }
  split; [reflexivity|]. split.
  - intros k Ni. rewrite P1 by (intros Q; apply Ni; right; exact Q). apply assoc_set_other. intros ->. apply Ni. left. reflexivity.
  - intros k tx' [[= <- <-]|Hin]; [|apply P2; exact Hin]. exists x. rewrite P1 by exact NI. split; [|apply assoc_set_same].
    destruct (D [] 0) as (q & Hq). rewrite app_nil_r in Hq. eapply unmarshal_eq; [exact Hq|discriminate].
Qed.

(** Decoding a dictionary into a map that held [m]. *)
Theorem map_reuse kt et old m inp v' rest off : kind_string kt = true -> (old = VMap m \/ old = VNil /\ m = []) ->
  unmarshal C (TMap kt et) old inp = DOk (VPtr v') rest off ->
  exists ks kts ts m', ascending ks /\ Forall2 lax_str ks kts /\ List.length ts = List.length ks /\
    inp = "d"%byte :: concat (map (fun kt => fst kt ++ snd kt) (combine kts ts)) ++ "e"%byte :: rest /\
    v' = VMap m' /\ (forall k, ~ In k ks -> assoc k m' = assoc k m) /\
    (forall k tx, In (k, tx) (combine ks ts) -> exists x, unmarshal C et (zero et) tx = DOk (VPtr x) [] (zlen tx) /\ assoc k m' = Some x).
Proof.
  intros Ks O H. apply unmarshal_run in H as (n & H). destruct n as [|n]; [discriminate|]. rewrite decode_S in H.
  cbn [is_ptr under negb andb impl] in H. apply dmap_ok in H as (v1 & H & [= ->]). destruct n as [|n]; [discriminate|]. rewrite decode_S in H.
  change (fl_elem fl_root_val) with fl_new in H. cbn [is_ptr under negb andb impl ptr_impl fl_new fl_addr] in H. fold fl_new in H.
  destruct inp as [|c inp]; [discriminate|]. destruct (beqb c "d") eqn:Ec; cbn [negb] in H; [|discriminate]. apply beqb_eq in Ec as ->.
  rewrite Ks in H. cbn [negb] in H.
  assert (S : decode_map C n et fl_new m [] inp (0 + 1) = DOk v1 rest off) by (destruct O as [->|[-> ->]]; exact H).
  apply map_loop in S as (ks & kts & ts & m' & As & Fk & Ll & E & -> & P1 & P2). exists ks, kts, ts, m'.
  split; [inversion As; assumption|]. rewrite E. repeat split; auto.
Qed.
End Reuse.
