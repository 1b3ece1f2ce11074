(** Facts about struct field discovery. *)
From Verif Require Import GoBase GoBaseProofs BencTypes BencFields BencEncode BencDecode BencSpec BencFieldSpec.
From Coq Require Import ZifyBool ZifyNat ZifyN Permutation Sorting.Sorted.

Lemma nodup_app {A} (l l' : list A) : NoDup l -> NoDup l' -> (forall x, In x l -> ~ In x l') -> NoDup (l ++ l').
Proof.
  induction l as [|x l IH]; cbn; intros H H' D; [exact H'|]. inversion H as [|? ? H1 H2]; subst. constructor.
  - rewrite in_app_iff. intros [Hi|Hi]; [auto|]. eapply D; [left; reflexivity|exact Hi].
  - apply IH; [exact H2|exact H'|]. intros y Hy. apply D. right. exact Hy.
Qed.

(** *** Association lists *)
Lemma assoc_in {A} k (v : A) m : assoc k m = Some v -> In (k, v) m.
Proof.
  induction m as [|[k' v'] m IH]; cbn; [discriminate|]. destruct (bytes_eqb k k') eqn:E.
  - intros [= ->]. apply bytes_eqb_eq in E. subst. auto.
  - auto.
Qed.
Lemma assoc_none {A} k (m : list (bytes * A)) : assoc k m = None <-> ~ In k (map fst m).
Proof.
  induction m as [|[k' v'] m IH]; cbn; [intuition|]. destruct (bytes_eqb k k') eqn:E.
  - apply bytes_eqb_eq in E. subst. split; [discriminate|]. intros H. exfalso. auto.
  - apply bytes_eqb_neq in E. rewrite IH. intuition.
Qed.
Lemma in_assoc {A} k (v : A) m : NoDup (map fst m) -> In (k, v) m -> assoc k m = Some v.
Proof.
  induction m as [|[k' v'] m IH]; cbn; intros N H; [destruct H|]. inversion N as [|? ? N1 N2]; subst.
  destruct H as [[= -> ->]|H].
  - rewrite bytes_eqb_refl. reflexivity.
  - destruct (bytes_eqb k k') eqn:E; [|auto]. apply bytes_eqb_eq in E. subst. exfalso. apply N1.
    apply in_map_iff. exists (k', v). auto.
Qed.
Lemma assoc_set_in {A} k (v : A) m k' v' : In (k', v') (assoc_set k v m) -> (k' = k /\ v' = v) \/ (In (k', v') m).
Proof.
  induction m as [|[k0 v0] m IH]; cbn.
  - intros [[= <- <-]|[]]. auto.
  - destruct (bytes_eqb k k0) eqn:E; cbn.
    + apply bytes_eqb_eq in E. subst. intros [[= <- <-]|H]; auto.
    + intros [[= <- <-]|H]; auto. destruct (IH H); auto.
Qed.
Lemma assoc_set_keys {A} k (v : A) m : map fst (assoc_set k v m) = if assoc k m then map fst m else map fst m ++ [k].
Proof.
  induction m as [|[k0 v0] m IH]; cbn; [reflexivity|]. destruct (bytes_eqb k k0) eqn:E; cbn.
  - reflexivity.
  - rewrite IH. destruct (assoc k m); reflexivity.
Qed.
Lemma assoc_set_nodup {A} k (v : A) m : NoDup (map fst m) -> NoDup (map fst (assoc_set k v m)).
Proof.
  intros N. rewrite assoc_set_keys. destruct (assoc k m) eqn:E; [exact N|].
  apply assoc_none in E. apply nodup_app; auto.
  - repeat constructor. intros [].
  - intros x Hx [<-|[]]. auto.
Qed.
Lemma assoc_set_same {A} k (v : A) m : assoc k (assoc_set k v m) = Some v.
Proof.
  induction m as [|[k0 v0] m IH]; cbn; [rewrite bytes_eqb_refl; reflexivity|].
  destruct (bytes_eqb k k0) eqn:E; cbn; rewrite E; auto.
Qed.
Lemma assoc_set_other {A} k k' (v : A) m : k <> k' -> assoc k' (assoc_set k v m) = assoc k' m.
Proof.
  intros N. induction m as [|[k0 v0] m IH]; cbn.
  - replace (bytes_eqb k' k) with false by (symmetry; apply bytes_eqb_neq; congruence). reflexivity.
  - destruct (bytes_eqb k k0) eqn:E; cbn.
    + apply bytes_eqb_eq in E. subst. replace (bytes_eqb k' k0) with false by (symmetry; apply bytes_eqb_neq; congruence). reflexivity.
    + destruct (bytes_eqb k' k0); auto.
Qed.

(** *** Sorting *)
Lemma insert_by_perm {A} (key : A -> bytes) x l : Permutation (insert_by key x l) (x :: l).
Proof.
  induction l as [|y l IH]; cbn; [reflexivity|]. destruct (bytes_ltb (key y) (key x)); [|reflexivity].
  rewrite IH. apply perm_swap.
Qed.
Lemma sort_by_perm {A} (key : A -> bytes) l : Permutation (sort_by key l) l.
Proof. induction l as [|x l IH]; cbn; [reflexivity|]. rewrite insert_by_perm, IH. reflexivity. Qed.
Lemma insert_by_ascending {A} (key : A -> bytes) x l :
  ascending (map key l) -> ~ In (key x) (map key l) -> ascending (map key (insert_by key x l)).
Proof.
  unfold ascending. induction l as [|y l IH]; cbn; intros H N.
  - repeat constructor.
  - inversion H as [|? ? H1 H2]; subst. destruct (bytes_ltb (key y) (key x)) eqn:E; cbn.
    + constructor; [apply IH; auto|]. rewrite Forall_forall in *. intros k Hk.
      apply in_map_iff in Hk as (z & <- & Hz). apply (Permutation_in _ (insert_by_perm key x l)) in Hz as [<-|Hz]; [exact E|].
      apply H2. apply in_map. exact Hz.
    + apply bytes_ltb_trichotomy in E as [E|E]; [exfalso; auto|]. constructor; [exact H|].
      constructor; [exact E|]. eapply Forall_impl; [|exact H2]. intros k Hk. eapply bytes_ltb_trans; eauto.
Qed.
Lemma sort_by_ascending {A} (key : A -> bytes) l : NoDup (map key l) -> ascending (map key (sort_by key l)).
Proof.
  induction l as [|x l IH]; cbn; intros N; [constructor|]. inversion N as [|? ? N1 N2]; subst.
  apply insert_by_ascending; [auto|]. intros H. apply N1. eapply Permutation_in; [|exact H]. apply Permutation_map, sort_by_perm.
Qed.
Lemma ascending_nodup ks : ascending ks -> NoDup ks.
Proof.
  intros H. induction H as [|k ks H IH F]; constructor; [|exact IH]. intros Hi. rewrite Forall_forall in F.
  specialize (F _ Hi). rewrite bytes_ltb_irrefl in F. discriminate.
Qed.
(** Two ascending permutations of each other are equal. *)
Lemma ascending_unique {A} (key : A -> bytes) l l' : ascending (map key l) -> ascending (map key l') -> Permutation l l' -> l = l'.
Proof.
  unfold ascending. revert l'; induction l as [|x l IH]; intros l' H H' P.
  - apply Permutation_nil in P. auto.
  - destruct l' as [|y l']; [symmetry in P; apply Permutation_nil in P; discriminate|].
    cbn in H, H'. inversion H as [|? ? H1 H2]; subst. inversion H' as [|? ? H1' H2']; subst.
    assert (x = y) as ->.
    { assert (In y (x :: l)) as [E|Hy] by (eapply Permutation_in; [symmetry; exact P|left; reflexivity]); [exact E|].
      assert (In x (y :: l')) as [E|Hx] by (eapply Permutation_in; [exact P|left; reflexivity]); [auto|].
      exfalso. rewrite Forall_forall in H2, H2'. specialize (H2 (key y) (in_map key _ _ Hy)). specialize (H2' (key x) (in_map key _ _ Hx)).
      apply bytes_ltb_asym in H2. congruence. }
    f_equal. apply IH; auto. eapply Permutation_cons_inv; eauto.
Qed.
Lemma sort_by_ascending_id {A} (key : A -> bytes) l : ascending (map key l) -> sort_by key l = l.
Proof.
  intros H. apply ascending_unique with (key := key); [|exact H|apply sort_by_perm].
  apply sort_by_ascending, ascending_nodup, H.
Qed.

Definition finfo_of (root : gty) (f : finfo) : Prop :=
  exists a ft, leaf_at root (f_index f) = Some (a, ft) /\ f_key f = field_key a /\ f_tag f = field_tag a /\
    f_name f = to_lower (fa_name a) /\ f_omit f = snd (parse_tag (fa_tag a)).
Definition ktf_ok (root : gty) (ktf : list (bytes * finfo)) : Prop :=
  NoDup (map fst ktf) /\ forall k f, In (k, f) ktf -> f_key f = k /\ finfo_of root f.
Definition queue_ok (root : gty) (q : list (list nat * gty)) : Prop :=
  forall path ty, In (path, ty) q -> forall p, p <> [] -> leaf_at root (path ++ p) = leaf_at ty p.

Lemma add_field_ok root ktf f : ktf_ok root ktf -> finfo_of root f -> ktf_ok root (add_field ktf f).
Proof.
  intros [N H] F. unfold add_field.
  assert (forall g, f_key g = f_key f -> finfo_of root g -> ktf_ok root (assoc_set (f_key f) g ktf)) as K.
  { intros g Eg Fg. split; [apply assoc_set_nodup; exact N|]. intros k f' Hi.
    apply assoc_set_in in Hi as [[-> ->]|Hi]; auto. }
  destruct (assoc (f_key f) ktf) as [ef|] eqn:E; [|apply K; auto].
  destruct (_ || f_ignored ef); [split; auto|].
  destruct (_ || _).
  - apply assoc_in in E. destruct (H _ _ E) as [Ek Fe]. apply K; [exact Ek|]. exact Fe.
  - destruct (_ && _); [apply K; auto|split; auto].
Qed.

Lemma queue_ok_app root q x : queue_ok root q -> (forall p, p <> [] -> leaf_at root (fst x ++ p) = leaf_at (snd x) p) -> queue_ok root (q ++ [x]).
Proof.
  intros H K path ty Hi. apply in_app_iff in Hi as [Hi|[->|[]]]; [apply H; exact Hi|exact K].
Qed.

Lemma visit_field_ok root path ty ktf next j a fty :
  ktf_ok root ktf -> queue_ok root next ->
  (forall p, p <> [] -> leaf_at root (path ++ p) = leaf_at ty p) ->
  nth_error (struct_fields (deref_ty ty)) j = Some (a, fty) ->
  ktf_ok root (fst (visit_field path (ktf, next) j (a, fty))) /\ queue_ok root (snd (visit_field path (ktf, next) j (a, fty))).
Proof.
  intros Hk Hq Hp Hn. unfold visit_field.
  assert (forall X, (if (if fa_anon a then negb (fa_exp a) && negb (kind_struct (if fa_anon a then deref_ty fty else fty)) else negb (fa_exp a))
           then (ktf, next) else if bytes_eqb (fa_tag a) (bs "-") then (ktf, next) else X) =
         if field_skipped a fty then (ktf, next) else X) as ES.
  { intros X. unfold field_skipped. destruct (fa_anon a); cbn.
    - destruct (negb (fa_exp a) && negb (kind_struct (deref_ty fty))), (bytes_eqb (fa_tag a) (bs "-")); reflexivity.
    - destruct (negb (fa_exp a)), (bytes_eqb (fa_tag a) (bs "-")); reflexivity. }
  rewrite ES. clear ES. destruct (field_skipped a fty) eqn:Sk; [auto|].
  destruct (parse_tag (fa_tag a)) as [tn omit] eqn:PT.
  assert (to_lower tn = field_tag a) as ET by (unfold field_tag; rewrite PT; reflexivity). rewrite ET.
  assert ((bytes_eqb (field_tag a) [] && fa_anon a && kind_struct (if fa_anon a then deref_ty fty else fty)) = field_embed a fty) as EE.
  { unfold field_embed. destruct (bytes_eqb (field_tag a) []), (fa_anon a); reflexivity. }
  rewrite EE. destruct (field_embed a fty) eqn:Em; cbn [fst snd f_index].
  - split; [exact Hk|]. apply queue_ok_app; [exact Hq|]. cbn [fst snd]. intros p Np.
    rewrite <- app_assoc. rewrite Hp by discriminate. cbn [app leaf_at]. rewrite Hn, Sk, Em.
    destruct p; [congruence|reflexivity].
  - split; [|exact Hq]. apply add_field_ok; [exact Hk|]. exists a, fty. cbn.
    rewrite Hp by discriminate. cbn [leaf_at]. rewrite Hn, Sk, Em, PT. repeat split; reflexivity.
Qed.

Lemma visit_fields_ok root path ty fs : (forall p, p <> [] -> leaf_at root (path ++ p) = leaf_at ty p) ->
  forall j acc, (forall i sf, nth_error fs i = Some sf -> nth_error (struct_fields (deref_ty ty)) (j + i) = Some sf) ->
  ktf_ok root (fst acc) -> queue_ok root (snd acc) ->
  ktf_ok root (fst (visit_fields path acc j fs)) /\ queue_ok root (snd (visit_fields path acc j fs)).
Proof.
  intros Hp. induction fs as [|[a fty] fs IH]; intros j [ktf next] Hn Hk Hq; cbn [visit_fields]; [auto|].
  destruct (visit_field_ok root path ty ktf next j a fty) as [Hk' Hq']; auto.
  { specialize (Hn O (a, fty) eq_refl). rewrite Nat.add_0_r in Hn. exact Hn. }
  apply IH; auto. intros i sf Hi. specialize (Hn (S i) sf Hi). rewrite <- Hn. f_equal. lia.
Qed.

Lemma visit_level_ok root curr : queue_ok root curr -> forall visited acc,
  ktf_ok root (fst acc) -> queue_ok root (snd acc) ->
  ktf_ok root (fst (snd (visit_level curr visited acc))) /\ queue_ok root (snd (snd (visit_level curr visited acc))).
Proof.
  induction curr as [|[path ty] curr IH]; intros Hc visited acc Hk Hq; cbn [visit_level]; [auto|].
  assert (queue_ok root curr) as Hc' by (intros p t Hi; apply Hc; right; exact Hi).
  destruct (ty_in (deref_ty ty) visited); [apply IH; auto|].
  destruct (visit_fields_ok root path ty (struct_fields (deref_ty ty))) with (j := O) (acc := acc) as [Hk' Hq']; auto.
  apply Hc. left. reflexivity.
Qed.

Lemma visit_all_ok root fuel : forall next visited ktf k, queue_ok root next -> ktf_ok root ktf ->
  visit_all fuel next visited ktf = Some k -> ktf_ok root k.
Proof.
  induction fuel as [|n IH]; intros next visited ktf k Hq Hk; cbn [visit_all]; destruct next as [|x next].
  - intros [= <-]. exact Hk.
  - discriminate.
  - intros [= <-]. exact Hk.
  - destruct (visit_level (x :: next) visited (ktf, [])) as [visited' [ktf' next']] eqn:E. intros H.
    destruct (visit_level_ok root (x :: next) Hq visited (ktf, [])) as [Hk' Hq']; auto.
    { intros ? ? []. }
    rewrite E in Hk', Hq'. eapply IH; eauto.
Qed.

Lemma key_to_field_ok t : ktf_ok t (key_to_field t).
Proof.
  unfold key_to_field. destruct (visit_all _ _ _ _) as [k|] eqn:E.
  - apply visit_all_ok with (root := t) in E; auto.
    + intros path ty [[= <- <-]|[]] p _. reflexivity.
    + split; [constructor|intros ? ? []].
  - split; [constructor|intros ? ? []].
Qed.

Lemma ktf_assoc t k f : assoc k (key_to_field t) = Some f -> f_key f = k /\ finfo_of t f.
Proof. intros H. apply assoc_in in H. apply (key_to_field_ok t). exact H. Qed.

(** Different keys have different paths. *)
Lemma ktf_path_inj t k k' f f' : assoc k (key_to_field t) = Some f -> assoc k' (key_to_field t) = Some f' ->
  k <> k' -> f_index f <> f_index f'.
Proof.
  intros H H' N E. apply ktf_assoc in H as (K & a & ft & L & Ka & _), H' as (K' & a' & ft' & L' & Ka' & _).
  rewrite E in L. rewrite L in L'. injection L' as <- <-. congruence.
Qed.

(** The emitted fields: strictly ascending keys, each found by the decoder. *)
Lemma filter_map_nodup {A B} (g : A -> B) P l : NoDup (map g l) -> NoDup (map g (filter P l)).
Proof.
  induction l as [|x l IH]; cbn; intros N; [constructor|]. inversion N as [|? ? N1 N2]; subst.
  destruct (P x); cbn; auto. constructor; auto. intros Hi. apply N1.
  apply in_map_iff in Hi as (y & E & Hy). apply filter_In in Hy as [Hy _]. rewrite <- E. apply in_map. exact Hy.
Qed.
Lemma ktf_keys_snd t : map f_key (map snd (key_to_field t)) = map fst (key_to_field t).
Proof.
  destruct (key_to_field_ok t) as [_ H]. induction (key_to_field t) as [|[k f] m IH]; cbn; [reflexivity|].
  f_equal; [apply (H k f); left; reflexivity|]. apply IH. intros k' f' Hi. apply H. right. exact Hi.
Qed.
Lemma sorted_fields_ascending t : ascending (map f_key (sorted_fields t)).
Proof.
  unfold sorted_fields. apply sort_by_ascending. apply filter_map_nodup. rewrite ktf_keys_snd. apply key_to_field_ok.
Qed.
Lemma sorted_fields_in t f : In f (sorted_fields t) <-> assoc (f_key f) (key_to_field t) = Some f /\ f_ignored f = false.
Proof.
  unfold sorted_fields. destruct (key_to_field_ok t) as [N H]. split.
  - intros Hi. apply (Permutation_in _ (sort_by_perm f_key _)) in Hi. apply filter_In in Hi as [Hi Hg].
    apply in_map_iff in Hi as ([k f'] & E & Hi). cbn in E. subst f'. destruct (H _ _ Hi) as [<- _].
    split; [apply in_assoc; auto|]. destruct (f_ignored f); [discriminate|reflexivity].
  - intros [Ha Hg]. eapply Permutation_in; [symmetry; apply sort_by_perm|]. apply filter_In.
    split; [|rewrite Hg; reflexivity]. apply assoc_in in Ha. apply in_map_iff. exists (f_key f, f). auto.
Qed.

(** *** Destination paths do not interfere *)
Lemma kind_struct_deref t : kind_struct t = true -> deref_ty t = t.
Proof. unfold kind_struct, deref_ty. destruct (under t); try discriminate. reflexivity. Qed.
Lemma leaf_at_step t i p a ft : leaf_at t (i :: p) = Some (a, ft) ->
  exists a0 ft0, nth_error (struct_fields (deref_ty t)) i = Some (a0, ft0) /\ field_skipped a0 ft0 = false /\
    (p = [] /\ field_embed a0 ft0 = false /\ a0 = a /\ ft0 = ft \/
     p <> [] /\ field_embed a0 ft0 = true /\ leaf_at ft0 p = Some (a, ft)).
Proof.
  cbn [leaf_at]. destruct (nth_error (struct_fields (deref_ty t)) i) as [[a0 ft0]|]; [|discriminate].
  destruct (field_skipped a0 ft0) eqn:S; [discriminate|]. destruct p as [|j p].
  - destruct (field_embed a0 ft0) eqn:E; [discriminate|]. intros [= -> ->]. exists a, ft. intuition.
  - destruct (field_embed a0 ft0) eqn:E; [|discriminate]. intros H. exists a0, ft0. split; [reflexivity|]. split; [exact S|].
    right. split; [discriminate|]. split; [exact E|exact H].
Qed.
Lemma embed_struct a ft : field_embed a ft = true -> kind_struct (deref_ty ft) = true.
Proof. unfold field_embed. rewrite !andb_true_iff. tauto. Qed.
Lemma leaf_at_deref ft p : leaf_at ft p = leaf_at (deref_ty ft) p \/ kind_struct (deref_ty ft) = false.
Proof.
  destruct (kind_struct (deref_ty ft)) eqn:E; [left|auto]. destruct p; cbn; [reflexivity|].
  rewrite (kind_struct_deref _ E). reflexivity.
Qed.

Lemma path_other p : forall q t fl v new rq x y,
  kind_struct t = true -> leaf_at t p = Some x -> leaf_at t q = Some y -> p <> q ->
  path_get q t fl v = Some rq ->
  path_get p t fl (path_set q t v new) = path_get p t fl v.
Proof.
  induction p as [|i p IH]; intros q t fl v new rq [xa xt] [ya yt] Kt Lp Lq N G; [discriminate|].
  destruct q as [|j q]; [discriminate|].
  cbn [path_set path_get] in *. destruct v; try discriminate.
  apply leaf_at_step in Lp as (a & ft & Np & Sp & Cp). apply leaf_at_step in Lq as (b & gt & Nq & Sq & Cq).
  rewrite (kind_struct_deref _ Kt) in Np, Nq. rewrite Nq in *.
  destruct (nth_error l j) as [w|] eqn:Nw; [|discriminate].
  destruct (Nat.eq_dec i j) as [->|D].
  - rewrite Np in Nq. injection Nq as -> ->. rewrite Np. rewrite Nw.
    rewrite list_set_nth_eq by (apply nth_error_Some; congruence).
    destruct Cp as [(-> & Ep & _)|(Np' & Ep & Lp)], Cq as [(-> & Eq & _)|(Nq' & Eq & Lq)]; try congruence.
    assert (p <> q) as N' by congruence.
    pose proof (embed_struct _ _ Eq) as Ks.
    assert (leaf_at (deref_ty gt) p = Some (xa, xt)) as Lp' by (destruct (leaf_at_deref gt p); congruence).
    assert (leaf_at (deref_ty gt) q = Some (ya, yt)) as Lq' by (destruct (leaf_at_deref gt q); congruence).
    unfold deref_ty in Ks, Lp', Lq'. destruct (under gt) eqn:U; try (eapply IH; eauto).
    assert (forall w0, path_get q gt (fl_field fl b) w0 = None) as NG.
    { intros w0. destruct q as [|j' q']; [congruence|]. cbn [path_get]. unfold struct_fields. rewrite U.
      destruct w0; try reflexivity. destruct j'; reflexivity. }
    destruct w; try (rewrite NG in G; discriminate G).
    + destruct (settable (fl_field fl b)); [|discriminate G]. eapply IH; eauto.
    + eapply IH; eauto.
  - rewrite Np. rewrite list_set_nth_neq by congruence. reflexivity.
Qed.

(** *** Depth of what a path reaches *)
Lemma fold_max_in {A} (f : A -> nat) x l : In x l -> (f x <= fold_right (fun y a => Nat.max (f y) a) O l)%nat.
Proof. induction l as [|y l IH]; cbn; [intros []|]. intros [->|H]; [lia|]. specialize (IH H). lia. Qed.
Lemma fold_max_le {A} (f : A -> nat) l n : (forall x, In x l -> (f x <= n)%nat) -> (fold_right (fun y a => Nat.max (f y) a) O l <= n)%nat.
Proof. induction l as [|y l IH]; cbn; intros H; [lia|]. pose proof (H y (or_introl eq_refl)). specialize (IH (fun x Hx => H x (or_intror Hx))). lia. Qed.

Lemma gty_ind' (P : gty -> Prop) :
  P TStr -> (forall w, P (TInt w)) -> (forall w, P (TUint w)) -> P TBool -> P TOther ->
  (forall t, P t -> P (TSlice t)) -> (forall n t, P t -> P (TArr n t)) -> (forall k t, P k -> P t -> P (TMap k t)) ->
  (forall nm fs, Forall (fun p => P (snd p)) fs -> P (TStruct nm fs)) ->
  P TAny -> P TIface -> (forall t, P t -> P (TPtr t)) -> (forall i m t, P t -> P (TNamed i m t)) -> forall t, P t.
Proof.
  intros H1 H2 H3 H4 H5 H6 H7 H8 H9 H10 H11 H12 H13. fix IH 1. intros t; destruct t.
  - apply H1.
  - apply H2.
  - apply H3.
  - apply H4.
  - apply H5.
  - apply H6, IH.
  - apply H7, IH.
  - apply H8; apply IH.
  - apply H9. induction fs as [|x fs IHfs]; constructor; [apply IH|exact IHfs].
  - apply H10.
  - apply H11.
  - apply H12, IH.
  - apply H13, IH.
Qed.

Lemma tdepth_pos t : (1 <= tdepth t)%nat.
Proof. destruct t; cbn; lia. Qed.
Lemma vdepth_zero t : (vdepth (zero t) <= tdepth t)%nat.
Proof.
  induction t as [| | | | | |n t IH| |nm fs IH| | |t IH|i m t IH] using gty_ind'; cbn; try lia.
  - assert (fold_right (fun x a => Nat.max (vdepth x) a) O (repeat (zero t) n) <= tdepth t)%nat; [|lia].
    apply fold_max_le. intros x Hx. apply repeat_spec in Hx. subst. exact IH.
  - assert (fold_right (fun x a => Nat.max (vdepth x) a) O (map (fun p => zero (snd p)) fs) <=
            fold_right (fun p a => Nat.max (tdepth (snd p)) a) O fs)%nat; [|lia].
    apply fold_max_le. intros x Hx. apply in_map_iff in Hx as (p & <- & Hp). rewrite Forall_forall in IH.
    specialize (IH _ Hp). pose proof (fold_max_in (fun p : fattr * gty => tdepth (snd p)) p fs Hp). cbn in *. lia.
Qed.
Lemma tdepth_under t : (tdepth (under t) <= tdepth t)%nat.
Proof. destruct t; cbn; lia. Qed.
Lemma tdepth_field t i a ft : nth_error (struct_fields t) i = Some (a, ft) -> (tdepth ft < tdepth t)%nat.
Proof.
  unfold struct_fields. intros H. pose proof (tdepth_under t). destruct (under t); try (destruct i; discriminate).
  apply nth_error_In in H. pose proof (fold_max_in (fun p : fattr * gty => tdepth (snd p)) _ fs H). cbn in *. lia.
Qed.
Lemma tdepth_ptr ft t' : under ft = TPtr t' -> (tdepth t' < tdepth ft)%nat.
Proof. intros H. pose proof (tdepth_under ft). rewrite H in *. cbn in *. lia. Qed.

Lemma path_get_depth p : forall t fl v ft ffl x, p <> [] -> path_get p t fl v = Some (ft, ffl, x) ->
  (tdepth ft < tdepth t /\ Nat.max (tdepth ft) (vdepth x) < Nat.max (tdepth t) (vdepth v))%nat.
Proof.
  induction p as [|i p IH]; intros t fl v ft ffl x Np; [congruence|]. intros H. cbn [path_get] in H.
  destruct v; try discriminate.
  destruct (nth_error (struct_fields t) i) as [[a gt]|] eqn:Nt; [|discriminate].
  destruct (nth_error l i) as [w|] eqn:Nw; [|discriminate].
  assert (forall t' fl' v', path_get p t' fl' v' = Some (ft, ffl, x) ->
     (tdepth ft <= tdepth t' /\ Nat.max (tdepth ft) (vdepth x) <= Nat.max (tdepth t') (vdepth v'))%nat) as IH'.
  { intros t' fl' v' H'. destruct p as [|j p].
    - cbn in H'. injection H' as -> _ ->. lia.
    - apply IH in H'; [|discriminate]. lia. }
  pose proof (tdepth_field _ _ _ _ Nt) as Tf.
  assert (vdepth w < vdepth (VStruct l))%nat as Vw.
  { cbn. pose proof (fold_max_in vdepth _ _ (nth_error_In _ _ Nw)). lia. }
  destruct (under gt) eqn:U; try (apply IH' in H; cbn [vdepth] in *; lia).
  pose proof (tdepth_ptr _ _ U). destruct w; try (apply IH' in H; cbn [vdepth] in *; lia).
  - destruct (settable _); [|discriminate]. apply IH' in H. pose proof (vdepth_zero g). lia.
Qed.
