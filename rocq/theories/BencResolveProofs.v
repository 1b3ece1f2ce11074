(** The breadth first search for struct fields finds, for every key, a field of
    minimal depth, and marks a key as ambiguous only if there are two such fields. *)
From Verif Require Import GoBase GoBaseProofs BencTypes BencFields BencEncode BencDecode BencSpec BencFieldSpec BencFieldsProofs.
From Coq Require Import ZifyBool ZifyNat ZifyN.

Lemma iw_eqb_eq a b : iw_eqb a b = true -> a = b.
Proof. destruct a, b; cbn; congruence. Qed.
Lemma orecv_eqb_eq a b : orecv_eqb a b = true -> a = b.
Proof. destruct a as [[]|], b as [[]|]; cbn; congruence. Qed.
Lemma meths_eqb_eq a b : meths_eqb a b = true -> a = b.
Proof.
  destruct a, b. unfold meths_eqb. cbn. rewrite andb_true_iff. intros [H1 H2].
  apply orecv_eqb_eq in H1, H2. congruence.
Qed.
Lemma fattr_eqb_eq a b : fattr_eqb a b = true -> a = b.
Proof.
  destruct a, b. unfold fattr_eqb. cbn. rewrite !andb_true_iff. intros [[[H1 H2] H3] H4].
  apply bytes_eqb_eq in H1, H2. apply Bool.eqb_prop in H3, H4. congruence.
Qed.
Lemma gty_eqb_eq a : forall b, gty_eqb a b = true -> a = b.
Proof.
  induction a as [| | | | |t IH|n t IH|k t IHk IH|nm fs IH| | |t IH|i m t IH] using gty_ind'; intros b H; destruct b; cbn in H; try discriminate; auto.
  - f_equal. apply iw_eqb_eq. exact H.
  - f_equal. apply iw_eqb_eq. exact H.
  - f_equal. auto.
  - apply andb_true_iff in H as [H1 H2]. apply Nat.eqb_eq in H1. f_equal; auto.
  - apply andb_true_iff in H as [H1 H2]. f_equal; auto.
  - apply andb_true_iff in H as [H1 H2]. apply bytes_eqb_eq in H1. subst. f_equal.
    revert fs0 H2. induction IH as [|[x t] fs Ht _ IHfs]; intros [|[x' t'] fs'] H; try discriminate; auto.
    apply andb_true_iff in H as [H H3]. apply andb_true_iff in H as [H1 H2]. cbn in Ht.
    apply fattr_eqb_eq in H1. apply Ht in H2. apply IHfs in H3. congruence.
  - f_equal. auto.
  - apply andb_true_iff in H as [H H3]. apply andb_true_iff in H as [H1 H2].
    apply Nat.eqb_eq in H1. apply meths_eqb_eq in H2. f_equal; auto.
Qed.
Lemma ty_in_In t l : ty_in t l = true -> In t l.
Proof. unfold ty_in. rewrite existsb_exists. intros (x & Hx & E). apply gty_eqb_eq in E. congruence. Qed.

Definition mk_field (path : list nat) (j : nat) (a : fattr) : finfo :=
  {| f_ignored := false; f_index := path ++ [j]; f_name := to_lower (fa_name a);
     f_tag := field_tag a; f_key := field_key a; f_omit := snd (parse_tag (fa_tag a)) |}.
Lemma visit_field_eq path ktf next j a fty :
  visit_field path (ktf, next) j (a, fty) =
  if field_skipped a fty then (ktf, next)
  else if field_embed a fty then (ktf, next ++ [(path ++ [j], fty)])
  else (add_field ktf (mk_field path j a), next).
Proof.
  unfold visit_field, field_skipped, field_embed, mk_field, field_key, field_tag.
  destruct (parse_tag (fa_tag a)) as [tn omit]. cbn [fst snd f_index].
  destruct (fa_anon a); cbn [negb andb].
  - destruct (negb (fa_exp a) && negb (kind_struct (deref_ty fty))), (bytes_eqb (fa_tag a) (bs "-")); cbn [orb]; try reflexivity.
  - destruct (negb (fa_exp a)), (bytes_eqb (fa_tag a) (bs "-")); cbn [orb]; try reflexivity.
    rewrite !andb_false_r. reflexivity.
Qed.

Definition covered (k : bytes) (n : nat) (ktf : list (bytes * finfo)) : Prop :=
  exists f, assoc k ktf = Some f /\ (List.length (f_index f) <= n)%nat.

Lemma add_field_mono k n ktf f : covered k n ktf -> covered k n (add_field ktf f).
Proof.
  intros (g & Hg & Hn). unfold add_field. destruct (assoc (f_key f) ktf) as [ef|] eqn:E.
  - destruct (_ <? _)%nat eqn:L; cbn [orb]; [exists g; auto|]. destruct (f_ignored ef); [exists g; auto|].
    apply Nat.ltb_ge in L.
    destruct (_ || _).
    + destruct (bytes_eq_dec (f_key f) k) as [<-|D].
      * eexists. rewrite assoc_set_same. split; [reflexivity|]. cbn. rewrite E in Hg; injection Hg as ->. exact Hn.
      * exists g. rewrite assoc_set_other by exact D. auto.
    + destruct (_ && _); [|exists g; auto]. destruct (bytes_eq_dec (f_key f) k) as [<-|D].
      * eexists. rewrite assoc_set_same. split; [reflexivity|]. rewrite E in Hg; injection Hg as ->. lia.
      * exists g. rewrite assoc_set_other by exact D. auto.
  - assert (f_key f <> k) as D by congruence. exists g. rewrite assoc_set_other by exact D. auto.
Qed.
(** ktf only holds fields of at most the current depth, so a new field is never
    shallower than an existing one. *)
Definition depth_le (n : nat) (ktf : list (bytes * finfo)) : Prop :=
  forall k f, assoc k ktf = Some f -> (List.length (f_index f) <= n)%nat.
Lemma add_field_depth n ktf f : depth_le n ktf -> (List.length (f_index f) <= n)%nat -> depth_le n (add_field ktf f).
Proof.
  intros H Hf k g. unfold add_field.
  assert (forall h, (List.length (f_index h) <= n)%nat -> assoc k (assoc_set (f_key f) h ktf) = Some g -> (List.length (f_index g) <= n)%nat) as K.
  { intros h Hh. destruct (bytes_eq_dec (f_key f) k) as [<-|D].
    - rewrite assoc_set_same. intros [= ->]. exact Hh.
    - rewrite assoc_set_other by exact D. apply H. }
  destruct (assoc (f_key f) ktf) as [ef|] eqn:E; [|apply K; exact Hf].
  destruct (_ || f_ignored ef); [apply H|]. destruct (_ || _).
  - apply K. cbn. eapply H; eauto.
  - destruct (_ && _); [apply K; exact Hf|apply H].
Qed.
Lemma add_field_covers ktf f : depth_le (List.length (f_index f)) ktf -> covered (f_key f) (List.length (f_index f)) (add_field ktf f).
Proof.
  intros H. pose proof (add_field_depth _ ktf f H (le_n _)) as H'.
  assert (exists g, assoc (f_key f) (add_field ktf f) = Some g) as (g & Hg).
  { unfold add_field. destruct (assoc (f_key f) ktf) as [ef|] eqn:E.
    - destruct (_ || f_ignored ef); [eauto|]. destruct (_ || _); [rewrite assoc_set_same; eauto|].
      destruct (_ && _); [rewrite assoc_set_same; eauto|eauto].
    - rewrite assoc_set_same. eauto. }
  exists g. split; [exact Hg|]. eapply H'; eauto.
Qed.

Lemma visit_fields_spec path fs : forall j ktf next,
  depth_le (S (List.length path)) ktf ->
  let r := visit_fields path (ktf, next) j fs in
  depth_le (S (List.length path)) (fst r) /\
  (forall k n, covered k n ktf -> covered k n (fst r)) /\
  (exists extra, snd r = next ++ extra /\
     (forall e, In e extra -> exists i a fty, e = (path ++ [(j + i)%nat], fty) /\ nth_error fs i = Some (a, fty) /\
                 field_skipped a fty = false /\ field_embed a fty = true) /\
     (forall i a fty, nth_error fs i = Some (a, fty) -> field_skipped a fty = false ->
        if field_embed a fty then In (path ++ [(j + i)%nat], fty) extra else covered (field_key a) (S (List.length path)) (fst r))).
Proof.
  induction fs as [|[a fty] fs IH]; intros j ktf next Hd; cbn [visit_fields].
  - cbn zeta. split; [exact Hd|]. split; [auto|]. exists []. rewrite app_nil_r. split; [reflexivity|]. split; [intros e []|].
    intros [|i] a fty H; discriminate.
  - rewrite visit_field_eq.
    destruct (field_skipped a fty) eqn:Sk.
    + destruct (IH (S j) ktf next Hd) as (H1 & H2 & extra & H3 & H4 & H5). split; [exact H1|]. split; [exact H2|].
      exists extra. split; [exact H3|]. split.
      * intros e He. destruct (H4 e He) as (i & a' & fty' & -> & E). exists (S i), a', fty'. split; [|exact E].
        f_equal. f_equal. f_equal. lia.
      * intros [|i] a' fty' E S'; cbn in E; [congruence|]. specialize (H5 i a' fty' E S').
        replace (j + S i)%nat with (S j + i)%nat by lia. exact H5.
    + destruct (field_embed a fty) eqn:Em.
      * destruct (IH (S j) ktf (next ++ [(path ++ [j], fty)]) Hd) as (H1 & H2 & extra & H3 & H4 & H5). split; [exact H1|]. split; [exact H2|].
        exists ((path ++ [j], fty) :: extra). split; [rewrite H3, <- app_assoc; reflexivity|]. split.
        -- intros e [<-|He].
           ++ exists O, a, fty. rewrite Nat.add_0_r. auto.
           ++ destruct (H4 e He) as (i & a' & fty' & -> & E). exists (S i), a', fty'. split; [|exact E]. f_equal. f_equal. f_equal. lia.
        -- intros [|i] a' fty' E S'; cbn in E.
           ++ injection E as <- <-. rewrite Em, Nat.add_0_r. left. reflexivity.
           ++ specialize (H5 i a' fty' E S'). replace (j + S i)%nat with (S j + i)%nat by lia.
              destruct (field_embed a' fty'); [right; exact H5|exact H5].
      * assert (List.length (f_index (mk_field path j a)) = S (List.length path)) as EL by (cbn; rewrite app_length; cbn; lia).
        assert (depth_le (S (List.length path)) (add_field ktf (mk_field path j a))) as Hd'.
        { apply add_field_depth; [exact Hd|]. rewrite EL. lia. }
        destruct (IH (S j) _ next Hd') as (H1 & H2 & extra & H3 & H4 & H5). split; [exact H1|].
        split; [intros k n Hc; apply H2, add_field_mono, Hc|].
        exists extra. split; [exact H3|]. split.
        -- intros e He. destruct (H4 e He) as (i & a' & fty' & -> & E). exists (S i), a', fty'. split; [|exact E]. f_equal. f_equal. f_equal. lia.
        -- intros [|i] a' fty' E S'; cbn in E.
           ++ injection E as <- <-. rewrite Em. apply H2. rewrite <- EL. change (field_key a) with (f_key (mk_field path j a)). apply add_field_covers. rewrite EL. exact Hd.
           ++ specialize (H5 i a' fty' E S'). replace (j + S i)%nat with (S j + i)%nat by lia. exact H5.
Qed.

(** *** Minimal depth *)
Section MinDepth.
Variable root : gty.

Definition pend (b : nat) (k : bytes) (n : nat) (ktf : list (bytes * finfo)) (Q : list (list nat * gty)) : Prop :=
  covered k n ktf \/
  exists path ty s a ft, In (path, ty) Q /\ (tdepth (deref_ty ty) < b)%nat /\ leaf_at (deref_ty ty) s = Some (a, ft) /\
     field_key a = k /\ (List.length path + List.length s <= n)%nat.

Definition seen_ok (d : nat) (T : gty) ktf Q : Prop :=
  forall s a ft, leaf_at T s = Some (a, ft) -> pend (tdepth T) (field_key a) (d + List.length s) ktf Q.

Definition q_struct (Q : list (list nat * gty)) : Prop := forall path ty, In (path, ty) Q -> kind_struct (deref_ty ty) = true.

Lemma pend_drop d path ty ktf Q : List.length path = d -> kind_struct (deref_ty ty) = true ->
  seen_ok d (deref_ty ty) ktf ((path, ty) :: Q) ->
  forall b k n, pend b k n ktf ((path, ty) :: Q) -> pend b k n ktf Q.
Proof.
  intros Hd Ks Hs b k n [H|(p & ty' & s & a & ft & Hi & Hb & L & K & Hn)]; [left; exact H|].
  destruct Hi as [[= <- <-]|Hi]; [|right; exists p, ty', s, a, ft; auto].
  destruct (Hs s a ft L) as [Hc|(p' & ty' & s' & a' & ft' & Hi' & Hb' & L' & K' & Hn')].
  - left. destruct Hc as (f & Hf & Hl). rewrite <- K. exists f. split; [exact Hf|]. lia.
  - destruct Hi' as [[= <- <-]|Hi'].
    + lia.
    + right. exists p', ty', s', a', ft'. repeat split; auto; try congruence; lia.
Qed.

Lemma pend_visit d path ty ktf curr next : List.length path = d -> kind_struct (deref_ty ty) = true -> depth_le (S d) ktf ->
  let r := visit_fields path (ktf, next) O (struct_fields (deref_ty ty)) in
  seen_ok d (deref_ty ty) (fst r) (curr ++ snd r) /\
  (forall b k n, pend b k n ktf ((path, ty) :: curr ++ next) -> pend b k n (fst r) (curr ++ snd r)).
Proof.
  intros Hd Ks Hl r. destruct (visit_fields_spec path (struct_fields (deref_ty ty)) O ktf next) as (H1 & H2 & extra & H3 & H4 & H5).
  { rewrite Hd. exact Hl. }
  fold r in H1, H2, H3, H5.
  assert (seen_ok d (deref_ty ty) (fst r) (curr ++ snd r)) as HS.
  { intros s a ft L. destruct s as [|i s]; [discriminate|]. apply leaf_at_step in L as (a0 & ft0 & N & Sk & C).
    rewrite (kind_struct_deref _ Ks) in N. specialize (H5 i a0 ft0 N Sk).
    destruct C as [(-> & E & -> & ->)|(Ns & E & L)].
    - rewrite E in H5. left. rewrite Hd in H5. cbn [List.length]. rewrite Nat.add_1_r. exact H5.
    - rewrite E in H5. right. pose proof (embed_struct _ _ E) as Ks0.
      exists (path ++ [(0 + i)%nat]), ft0, s, a, ft. split; [rewrite H3, !in_app_iff; auto|].
      split.
      { pose proof (tdepth_field _ _ _ _ N). unfold deref_ty at 1. destruct (under ft0) eqn:U; try lia.
        pose proof (tdepth_ptr _ _ U). lia. }
      split; [destruct (leaf_at_deref ft0 s); congruence|]. split; [reflexivity|].
      rewrite app_length. cbn. lia. }
  split; [exact HS|].
  intros b k n [H|(p & ty' & s & a & ft & Hi & Hb & L & K & Hn)]; [left; apply H2; exact H|].
  destruct Hi as [[= <- <-]|Hi].
  - destruct (HS s a ft L) as [Hc|(p' & ty' & s' & a' & ft' & Hi' & Hb' & L' & K' & Hn')].
    + left. destruct Hc as (f & Hf & Hlen). rewrite <- K. exists f. split; [exact Hf|]. lia.
    + right. exists p', ty', s', a', ft'. repeat split; auto; try congruence; lia.
  - right. exists p, ty', s, a, ft. repeat split; auto. rewrite H3. rewrite !in_app_iff in *. tauto.
Qed.

Definition lvl (d : nat) (Q : list (list nat * gty)) : Prop :=
  forall path ty, In (path, ty) Q -> List.length path = d /\ kind_struct (deref_ty ty) = true.

Lemma visit_level_pend d curr : lvl d curr -> forall next visited ktf, lvl (S d) next -> depth_le (S d) ktf ->
  (forall T, In T visited -> seen_ok d T ktf (curr ++ next)) ->
  let r := visit_level curr visited (ktf, next) in
  lvl (S d) (snd (snd r)) /\ depth_le (S d) (fst (snd r)) /\
  (forall T, In T (fst r) -> seen_ok d T (fst (snd r)) (snd (snd r))) /\
  (forall b k n, pend b k n ktf (curr ++ next) -> pend b k n (fst (snd r)) (snd (snd r))).
Proof.
  induction curr as [|[path ty] curr IH]; intros Hc next visited ktf Hn Hk Hv; cbn [visit_level].
  - cbn. auto.
  - destruct (Hc path ty (or_introl eq_refl)) as [Hl Ks].
    assert (lvl d curr) as Hc' by (intros p t Hi; apply Hc; right; exact Hi).
    destruct (ty_in (deref_ty ty) visited) eqn:V.
    + apply ty_in_In in V.
      assert (forall b k n, pend b k n ktf (((path, ty) :: curr) ++ next) -> pend b k n ktf (curr ++ next)) as Dr.
      { apply (pend_drop d); auto. }
      destruct (IH Hc' next visited ktf Hn Hk) as (H1 & H2 & H3 & H4).
      { intros T HT s a ft L. apply Dr. apply (Hv T HT s a ft L). }
      repeat (split; [assumption|]). intros b k n Hp. apply H4. apply Dr. exact Hp.
    + destruct (pend_visit d path ty ktf curr next Hl Ks Hk) as [P1 P2].
      destruct (visit_fields_spec path (struct_fields (deref_ty ty)) O ktf next) as (F1 & F2 & extra & F3 & F4 & F5).
      { rewrite Hl. exact Hk. }
      destruct (visit_fields path (ktf, next) O (struct_fields (deref_ty ty))) as [ktf' next'] eqn:EV. cbn [fst snd] in *.
      destruct (IH Hc' next' (deref_ty ty :: visited) ktf') as (H1 & H2 & H3 & H4).
      { intros p t Hi. rewrite F3 in Hi. apply in_app_iff in Hi as [Hi|Hi]; [apply Hn; exact Hi|].
        apply F4 in Hi as (i & a & fty & [= -> ->] & _ & _ & E). rewrite app_length. cbn. split; [lia|]. eapply embed_struct; eauto. }
      { rewrite <- Hl. exact F1. }
      { intros T [<-|HT]; [exact P1|]. intros s a ft L. apply P2. apply (Hv T HT s a ft L). }
      repeat (split; [assumption|]). intros b k n Hp. apply H4. apply P2. exact Hp.
Qed.

Definition shrinking (m : nat) (Q : list (list nat * gty)) : Prop := forall path ty, In (path, ty) Q -> (tdepth ty <= m)%nat.
Lemma visit_level_shrink m curr : shrinking (S m) curr -> forall visited acc, shrinking m (snd acc) -> 
  (forall path ty, In (path, ty) curr -> kind_struct (deref_ty ty) = true) ->
  shrinking m (snd (snd (visit_level curr visited acc))).
Proof.
  induction curr as [|[path ty] curr IH]; intros Hc visited [ktf next] Hn Ks; cbn [visit_level]; [exact Hn|].
  assert (shrinking (S m) curr) as Hc' by (intros p t Hi; eapply Hc; right; exact Hi).
  assert (forall path ty, In (path, ty) curr -> kind_struct (deref_ty ty) = true) as Ks' by (intros p t Hi; apply (Ks p t); right; exact Hi).
  destruct (ty_in (deref_ty ty) visited); [apply IH; auto|]. apply IH; auto. cbn [snd] in Hn.
  pose proof (Hc _ _ (or_introl eq_refl)) as Ht.
  assert (tdepth (deref_ty ty) <= S m)%nat as Hd.
  { unfold deref_ty. destruct (under ty) eqn:U; try lia. pose proof (tdepth_ptr _ _ U). lia. }
  assert (forall i sf, nth_error (struct_fields (deref_ty ty)) i = Some sf -> (tdepth (snd sf) <= m)%nat) as Hf.
  { intros i [a ft] N. apply tdepth_field in N. cbn. lia. }
  clear - Hn Hf. revert ktf next Hn Hf. generalize O as j. induction (struct_fields (deref_ty ty)) as [|[a fty] fs IH]; intros j ktf next Hn Hf; cbn [visit_fields]; [exact Hn|].
  rewrite visit_field_eq. assert (forall i sf, nth_error fs i = Some sf -> (tdepth (snd sf) <= m)%nat) as Hf' by (intros i sf N; apply (Hf (S i) sf N)).
  destruct (field_skipped a fty); [apply IH; auto|]. destruct (field_embed a fty); apply IH; auto.
  intros p t Hi. apply in_app_iff in Hi as [Hi|[[= <- <-]|[]]]; [eapply Hn; eauto|]. apply (Hf O _ eq_refl).
Qed.

Lemma visit_all_pend fuel : forall d next visited ktf, lvl d next -> depth_le d ktf -> shrinking fuel next ->
  (forall T, In T visited -> seen_ok d T ktf next) ->
  exists k, visit_all fuel next visited ktf = Some k /\ forall b key n, pend b key n ktf next -> covered key n k.
Proof.
  induction fuel as [|m IH]; intros d next visited ktf Hl Hk Hs Hv; cbn [visit_all]; destruct next as [|[path ty] next].
  - exists ktf. split; [reflexivity|]. intros b key n [H|(p & t & s & a & ft & [] & _)]. exact H.
  - exfalso. specialize (Hs _ _ (or_introl eq_refl)). pose proof (tdepth_pos ty). lia.
  - exists ktf. split; [reflexivity|]. intros b key n [H|(p & t & s & a & ft & [] & _)]. exact H.
  - destruct (visit_level_pend d ((path, ty) :: next)) with (next := @nil (list nat * gty)) (visited := visited) (ktf := ktf) as (H1 & H2 & H3 & H4); auto.
    { intros p t []. }
    { intros k f Hf. specialize (Hk k f Hf). lia. }
    { rewrite app_nil_r. exact Hv. }
    pose proof (visit_level_shrink m ((path, ty) :: next)) as SH.
    specialize (SH Hs visited (ktf, []) ltac:(intros p t []) ltac:(intros p t Hi; apply (Hl p t Hi))).
    destruct (visit_level ((path, ty) :: next) visited (ktf, [])) as [visited' [ktf' next']]. cbn [fst snd] in *.
    destruct (IH (S d) next' visited' ktf') as (k & E & Hc); auto.
    { intros T HT s a ft L. destruct (H3 T HT s a ft L) as [(f & Hf & Hn)|(p & t & s' & a' & ft' & Q1 & Q2 & Q3 & Q4 & Q5)].
      - left. exists f. split; [exact Hf|lia].
      - right. exists p, t, s', a', ft'. repeat split; auto; lia. }
    exists k. split; [exact E|]. intros b key n Hp. eapply Hc. apply H4. rewrite app_nil_r. exact Hp.
Qed.
End MinDepth.

Lemma key_to_field_total t : kind_struct t = true ->
  exists k, visit_all (S (tdepth t)) [([], t)] [] [] = Some k /\ key_to_field t = k /\
    forall p key, has_key t p key -> covered key (List.length p) k.
Proof.
  intros Ks. destruct (visit_all_pend (S (tdepth t)) O [([], t)] [] []) as (k & E & H).
  - intros p ty [[= <- <-]|[]]. rewrite (kind_struct_deref _ Ks). auto.
  - intros k f Hf. discriminate.
  - intros p ty [[= <- <-]|[]]. lia.
  - intros T [].
  - exists k. split; [exact E|]. unfold key_to_field. rewrite E. split; [reflexivity|].
    intros p key (a & ft & L & K). apply (H (S (tdepth t))). right. exists [], t, p, a, ft.
    rewrite (kind_struct_deref _ Ks). cbn. repeat split; auto.
Qed.

(** *** Ambiguity is only reported when there is one *)
Definition disj (p q : list nat) : Prop := forall a b, p ++ a <> q ++ b.
Lemma disj_sym p q : disj p q -> disj q p.
Proof. intros H a b E. apply (H b a). auto. Qed.
Lemma disj_ext_l p q x : disj p q -> disj (p ++ x) q.
Proof. intros H a b. rewrite <- app_assoc. apply H. Qed.
Lemma disj_branch p i j : i <> j -> disj (p ++ [i]) (p ++ [j]).
Proof. intros N a b E. rewrite <- !app_assoc in E. apply app_inv_head in E. cbn in E. congruence. Qed.

Section Ambig.
Variable root : gty.
Definition ign_ok (ktf : list (bytes * finfo)) : Prop :=
  forall k f, In (k, f) ktf -> f_ignored f = true ->
    exists p, p <> f_index f /\ (List.length p <= List.length (f_index f))%nat /\ has_key root p k.

Lemma add_field_ign ktf f : ktf_ok root ktf -> finfo_of root f -> f_ignored f = false -> ign_ok ktf ->
  (forall k g, In (k, g) ktf -> f_index g <> f_index f) -> ign_ok (add_field ktf f).
Proof.
  intros Hk Hf Nf Hi Hd. unfold add_field.
  destruct (assoc (f_key f) ktf) as [ef|] eqn:E.
  - destruct (_ <? _)%nat eqn:L; cbn [orb]; [exact Hi|]. destruct (f_ignored ef); [exact Hi|]. apply Nat.ltb_ge in L.
    destruct (_ || _).
    + intros k g Hg Ig. apply assoc_set_in in Hg as [[-> ->]|Hg]; [|eauto].
      cbn. exists (f_index f). apply assoc_in in E. split; [intros E2; eapply Hd; eauto|]. split; [exact L|].
      destruct Hf as (a & ft & La & Ka & _). exists a, ft. split; [exact La|auto].
    + destruct (_ && _); [|exact Hi]. intros k g Hg Ig. apply assoc_set_in in Hg as [[-> ->]|Hg]; [congruence|eauto].
  - intros k g Hg Ig. apply assoc_set_in in Hg as [[-> ->]|Hg]; [congruence|eauto].
Qed.

Lemma add_field_paths (P : list nat -> Prop) ktf f : (forall k g, In (k, g) ktf -> P (f_index g)) -> P (f_index f) ->
  forall k g, In (k, g) (add_field ktf f) -> P (f_index g).
Proof.
  intros H Hf k g. unfold add_field. destruct (assoc (f_key f) ktf) as [ef|] eqn:E.
  - destruct (_ || f_ignored ef); [apply H|]. destruct (_ || _).
    + intros Hg. apply assoc_set_in in Hg as [[-> ->]|Hg]; [|eauto]. cbn. apply assoc_in in E. eauto.
    + destruct (_ && _); [|apply H]. intros Hg. apply assoc_set_in in Hg as [[-> ->]|Hg]; eauto.
  - intros Hg. apply assoc_set_in in Hg as [[-> ->]|Hg]; eauto.
Qed.

Definition sep_paths (Q : list (list nat * gty)) (ktf : list (bytes * finfo)) : Prop :=
  (forall k f e, In (k, f) ktf -> In e Q -> forall q, f_index f <> fst e ++ q) /\
  ForallOrdPairs (fun e e' => disj (fst e) (fst e')) Q.

Lemma fop_app {A} (R : A -> A -> Prop) l x : ForallOrdPairs R l -> Forall (fun y => R y x) l -> ForallOrdPairs R (l ++ [x]).
Proof.
  induction 1 as [|a l Ha H IH]; intros F; cbn.
  - repeat constructor.
  - inversion F; subst. constructor; [|apply IH; auto]. apply Forall_app. split; auto.
Qed.
Lemma fop_cons_inv {A} (R : A -> A -> Prop) x l : ForallOrdPairs R (x :: l) -> Forall (R x) l /\ ForallOrdPairs R l.
Proof. inversion 1; subst; auto. Qed.

Lemma visit_fields_ign path ty fs curr : (forall p, p <> [] -> leaf_at root (path ++ p) = leaf_at ty p) ->
  forall j ktf next, (forall i sf, nth_error fs i = Some sf -> nth_error (struct_fields (deref_ty ty)) (j + i) = Some sf) ->
  ktf_ok root ktf -> ign_ok ktf -> sep_paths (curr ++ next) ktf ->
  (forall k f, In (k, f) ktf -> (forall q, f_index f <> path ++ q) \/ exists j', (j' < j)%nat /\ f_index f = path ++ [j']) ->
  (forall e, In e (curr ++ next) -> disj (fst e) path \/ exists j', (j' < j)%nat /\ fst e = path ++ [j']) ->
  let r := visit_fields path (ktf, next) j fs in
  ign_ok (fst r) /\ sep_paths (curr ++ snd r) (fst r).
Proof.
  intros Hp. induction fs as [|[a fty] fs IH]; intros j ktf next Hn Hk Hi Hs HP HQ; cbn [visit_fields]; [cbn; auto|].
  rewrite visit_field_eq.
  assert (forall i sf, nth_error fs i = Some sf -> nth_error (struct_fields (deref_ty ty)) (S j + i) = Some sf) as Hn'.
  { intros i sf N. specialize (Hn (S i) sf N). rewrite <- Hn. f_equal. lia. }
  assert (nth_error (struct_fields (deref_ty ty)) j = Some (a, fty)) as N0.
  { specialize (Hn O _ eq_refl). rewrite Nat.add_0_r in Hn. exact Hn. }
  assert (forall k f, In (k, f) ktf -> (forall q, f_index f <> path ++ q) \/ exists j', (j' < S j)%nat /\ f_index f = path ++ [j']) as HP'.
  { intros k f H. destruct (HP k f H) as [?|(j' & ? & ?)]; [auto|]. right. exists j'. split; [lia|assumption]. }
  assert (forall e, In e (curr ++ next) -> disj (fst e) path \/ exists j', (j' < S j)%nat /\ fst e = path ++ [j']) as HQ'.
  { intros e H. destruct (HQ e H) as [?|(j' & ? & ?)]; [auto|]. right. exists j'. split; [lia|assumption]. }
  assert (forall e, In e (curr ++ next) -> disj (fst e) (path ++ [j])) as HQj.
  { intros e H. destruct (HQ e H) as [?|(j' & ? & ->)]; [apply disj_sym, disj_ext_l, disj_sym; assumption|].
    apply disj_branch. lia. }
  destruct (field_skipped a fty) eqn:Sk; [apply IH; auto|].
  destruct (field_embed a fty) eqn:Em.
  - apply IH; auto.
    + destruct Hs as [S1 S2]. split.
      * intros k f e Hf He q. rewrite app_assoc in He. apply in_app_iff in He as [He|[<-|[]]]; [apply (S1 k f e Hf He)|].
        cbn. destruct (HP k f Hf) as [H|(j' & Hj & E)]; [rewrite <- app_assoc; apply H|].
        rewrite E. rewrite <- app_assoc. intros EE. apply app_inv_head in EE. cbn in EE. injection EE as -> _. lia.
      * rewrite app_assoc. apply fop_app; [exact S2|]. apply Forall_forall. exact HQj.
    + intros e He. rewrite app_assoc in He. apply in_app_iff in He as [He|[<-|[]]]; [auto|]. cbn. right. exists j. split; [lia|reflexivity].
  - assert (finfo_of root (mk_field path j a)) as Fi.
    { exists a, fty. cbn. rewrite Hp by discriminate. cbn [leaf_at]. rewrite N0, Sk, Em. repeat split; reflexivity. }
    assert (forall k g, In (k, g) ktf -> f_index g <> f_index (mk_field path j a)) as Hne.
    { intros k g Hg. cbn. destruct (HP k g Hg) as [H|(j' & Hj & ->)]; [apply H|]. intros E. apply app_inv_head in E. injection E as ->. lia. }
    apply IH; auto.
    + apply add_field_ok; auto.
    + apply add_field_ign; auto.
    + destruct Hs as [S1 S2]. split; [|exact S2]. intros k f e Hf He q.
      revert k f Hf. apply (add_field_paths (fun ix => ix <> fst e ++ q)).
      * intros k g Hg. apply (S1 k g e Hg He).
      * cbn. intros E. apply (HQj e He q []). rewrite app_nil_r. auto.
    + apply (add_field_paths (fun ix => (forall q, ix <> path ++ q) \/ exists j', (j' < S j)%nat /\ ix = path ++ [j'])); [exact HP'|].
      right. exists j. split; [lia|reflexivity].
Qed.

Lemma visit_level_ign curr : queue_ok root curr -> forall visited ktf next,
  ktf_ok root ktf -> ign_ok ktf -> sep_paths (curr ++ next) ktf ->
  let r := visit_level curr visited (ktf, next) in ign_ok (fst (snd r)) /\ sep_paths (snd (snd r)) (fst (snd r)).
Proof.
  induction curr as [|[path ty] curr IH]; intros Hc visited ktf next Hk Hi Hs; cbn [visit_level]; [cbn; auto|].
  assert (queue_ok root curr) as Hc' by (intros p t Hin; apply Hc; right; exact Hin).
  destruct Hs as [S1 S2]. cbn [app] in S1, S2. apply fop_cons_inv in S2 as [S3 S2].
  assert (sep_paths (curr ++ next) ktf) as Hs'.
  { split; [|exact S2]. intros k f e Hf He. apply (S1 k f e Hf). right. exact He. }
  destruct (ty_in (deref_ty ty) visited); [apply IH; auto|].
  pose proof (Hc path ty (or_introl eq_refl)) as Hp.
  destruct (visit_fields_ign path ty (struct_fields (deref_ty ty)) curr Hp O ktf next) as [H1 H2]; auto.
  { intros k f Hf. left. intros q. apply (S1 k f _ Hf (or_introl eq_refl)). }
  { intros e He. left. rewrite Forall_forall in S3. apply disj_sym. apply S3. exact He. }
  destruct (visit_fields_ok root path ty (struct_fields (deref_ty ty)) Hp O (ktf, [])) as [H3 _]; auto.
  { intros ? ? []. }
  assert (forall fs j k n n', fst (visit_fields path (k, n) j fs) = fst (visit_fields path (k, n') j fs)) as EF.
  { clear. induction fs as [|[a ft] fs IH]; intros; cbn [visit_fields]; [reflexivity|]. rewrite !visit_field_eq.
    destruct (field_skipped a ft); [apply IH|]. destruct (field_embed a ft); apply IH. }
  rewrite (EF _ _ _ [] next) in H3.
  destruct (visit_fields path (ktf, next) O (struct_fields (deref_ty ty))) as [ktf' next'] eqn:EV. cbn [fst snd] in *.
  apply IH; auto.
Qed.

Lemma visit_all_ign fuel : forall next visited ktf k, queue_ok root next -> ktf_ok root ktf -> ign_ok ktf -> sep_paths next ktf ->
  visit_all fuel next visited ktf = Some k -> ign_ok k.
Proof.
  induction fuel as [|n IH]; intros next visited ktf k Hq Hk Hi Hs; cbn [visit_all]; destruct next as [|x next].
  - intros [= <-]. exact Hi.
  - discriminate.
  - intros [= <-]. exact Hi.
  - destruct (visit_level_ign (x :: next) Hq visited ktf []) as [H1 H2]; auto; [rewrite app_nil_r; exact Hs|].
    destruct (visit_level_ok root (x :: next) Hq visited (ktf, [])) as [Hk' Hq']; auto.
    { intros ? ? []. }
    destruct (visit_level (x :: next) visited (ktf, [])) as [visited' [ktf' next']] eqn:E. cbn [fst snd] in *.
    intros H. eapply IH; eauto.
Qed.
End Ambig.

Lemma key_to_field_ign t : ign_ok t (key_to_field t).
Proof.
  unfold key_to_field. destruct (visit_all _ _ _ _) as [k|] eqn:E; [|intros ? ? []].
  apply visit_all_ign with (root := t) in E; auto.
  - intros path ty [[= <- <-]|[]] p _. reflexivity.
  - split; [constructor|intros ? ? []].
  - intros ? ? [].
  - split; [intros ? ? ? []|repeat constructor].
Qed.

(** *** Summary *)
Lemma resolve_found t p k : kind_struct t = true -> has_key t p k ->
  exists f, assoc k (key_to_field t) = Some f /\ (List.length (f_index f) <= List.length p)%nat.
Proof. intros Ks H. destruct (key_to_field_total t Ks) as (kk & _ & -> & Hc). apply Hc. exact H. Qed.
Lemma resolve_has_key t k f : assoc k (key_to_field t) = Some f -> has_key t (f_index f) k.
Proof. intros H. apply ktf_assoc in H as (K & a & ft & L & Ka & _). exists a, ft. split; [exact L|congruence]. Qed.
Lemma resolve_unique t p k : kind_struct t = true -> has_key t p k ->
  (forall q, has_key t q k -> q <> p -> (List.length p < List.length q)%nat) ->
  exists f, assoc k (key_to_field t) = Some f /\ f_index f = p /\ f_ignored f = false.
Proof.
  intros Ks H U. destruct (resolve_found t p k Ks H) as (f & Hf & Hl). exists f. split; [exact Hf|].
  pose proof (resolve_has_key _ _ _ Hf) as Hh.
  assert (f_index f = p) as E.
  { destruct (list_eq_dec Nat.eq_dec (f_index f) p) as [E|D]; [exact E|]. specialize (U _ Hh D). lia. }
  split; [exact E|]. destruct (f_ignored f) eqn:I; [|reflexivity]. exfalso.
  destruct (key_to_field_ign t k f (assoc_in _ _ _ Hf) I) as (q & Nq & Hq & Hk). rewrite E in *. specialize (U q Hk Nq). lia.
Qed.
