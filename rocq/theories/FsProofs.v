(** Lemmas about the file system of Fs.v: what each call does to every path. *)
From Verif Require Import GoBase GoBaseProofs Url UrlProofs Fs.

Lemma path_eqb_eq p q : path_eqb p q = true <-> p = q.
Proof.
  revert q; induction p as [|a p IH]; intros [|b q]; cbn; split; try congruence; try tauto.
  - intros H; apply andb_true_iff in H as [H1 H2]. apply bytes_eqb_eq in H1; apply IH in H2; congruence.
  - intros [= -> ->]. rewrite bytes_eqb_refl. now apply IH.
Qed.
Lemma path_eqb_refl p : path_eqb p p = true.
Proof. now apply path_eqb_eq. Qed.
Lemma path_eqb_neq p q : path_eqb p q = false <-> p <> q.
Proof. rewrite <- path_eqb_eq. destruct (path_eqb p q); split; congruence. Qed.
Lemma path_eq_dec (p q : path) : {p = q} + {p <> q}.
Proof. destruct (path_eqb p q) eqn:E; [left; now apply path_eqb_eq|right; now apply path_eqb_neq]. Qed.
Lemma under_path_iff p q : under_path p q = true <-> exists r, q = p ++ r.
Proof.
  revert q; induction p as [|a p IH]; intros q; cbn.
  - split; [now exists q|easy].
  - destruct q as [|b q]; [split; [easy|intros [r [=]]]|].
    rewrite andb_true_iff, bytes_eqb_eq, IH. split.
    + intros [-> [r ->]]; now exists r.
    + intros [r [= -> ->]]; split; [easy|now exists r].
Qed.
Lemma under_path_app p r : under_path p (p ++ r) = true.
Proof. apply under_path_iff; now exists r. Qed.
Lemma under_path_refl p : under_path p p = true.
Proof. apply under_path_iff; exists []; now rewrite app_nil_r. Qed.
Lemma under_path_trans p q r : under_path p q = true -> under_path q r = true -> under_path p r = true.
Proof. rewrite !under_path_iff. intros [a ->] [b ->]. exists (a ++ b). now rewrite app_assoc. Qed.
(** Two prefixes of the same path are comparable. *)
Lemma under_path_comparable p q r : under_path p r = true -> under_path q r = true -> under_path p q = true \/ under_path q p = true.
Proof.
  revert q r; induction p as [|a p IH]; intros q r; [now left|].
  destruct q as [|b q]; [now right|]. destruct r as [|c r]; [easy|]. cbn.
  rewrite !andb_true_iff, !bytes_eqb_eq. intros [-> H1] [-> H2].
  destruct (IH _ _ H1 H2); tauto.
Qed.
Lemma under_path_nil p : under_path p [] = true -> p = [].
Proof. destruct p; [easy|discriminate]. Qed.
Lemma skipn_app_exact {A} (p r : list A) : skipn (List.length p) (p ++ r) = r.
Proof. rewrite skipn_app, skipn_all, Nat.sub_diag. reflexivity. Qed.

(** Keys *)
Definition keys (f : fs) := map fst f.
Lemma find_in p n f : find p f = Some n -> In (p, n) f.
Proof.
  induction f as [|[q m] f IH]; [discriminate|]. cbn. destruct (path_eqb p q) eqn:E.
  - intros [= ->]. apply path_eqb_eq in E as ->. now left.
  - right; auto.
Qed.
Lemma find_none p f : find p f = None <-> ~ In p (keys f).
Proof.
  induction f as [|[q m] f IH]; cbn; [tauto|]. destruct (path_eqb p q) eqn:E.
  - apply path_eqb_eq in E as ->. split; [discriminate|tauto].
  - apply path_eqb_neq in E. rewrite IH. split; [intros H [->|H']; tauto|tauto].
Qed.
Lemma in_find p n f : NoDup (keys f) -> In (p, n) f -> find p f = Some n.
Proof.
  induction f as [|[q m] f IH]; [easy|]. cbn. intros Hnd [[= -> ->]|H]; [now rewrite path_eqb_refl|].
  inversion Hnd as [|? ? H1 H2]; subst. destruct (path_eqb p q) eqn:E; [|auto].
  apply path_eqb_eq in E as ->. destruct H1. apply in_map_iff. now exists (q, n).
Qed.
Lemma in_some p n f : In (p, n) f -> exists n', find p f = Some n'.
Proof. intros H. destruct (find p f) eqn:E; [eauto|]. apply find_none in E. destruct E. apply in_map_iff. now exists (p, n). Qed.

Lemma lookup_find p f : p <> [] -> lookup p f = find p f.
Proof. now destruct p. Qed.
Lemma find_filter p (f : fs) (keep : path -> bool) :
  find p (filter (fun e => keep (fst e)) f) = if keep p then find p f else None.
Proof.
  induction f as [|[q m] f IH]; cbn; [now destruct (keep p)|].
  destruct (keep q) eqn:K; cbn.
  - destruct (path_eqb p q) eqn:E; [apply path_eqb_eq in E as ->; now rewrite K|exact IH].
  - rewrite IH. destruct (path_eqb p q) eqn:E; [apply path_eqb_eq in E as ->; now rewrite K|reflexivity].
Qed.
Lemma lookup_filter p (f : fs) (keep : path -> bool) : p <> [] -> lookup p (filter (fun e => keep (fst e)) f) = if keep p then lookup p f else None.
Proof. intros H. rewrite !lookup_find by easy. apply find_filter. Qed.
Lemma lookup_del_same p f : p <> [] -> lookup p (del p f) = None.
Proof. intros H. unfold del. rewrite (lookup_filter p f (fun q => negb (path_eqb p q))) by easy. now rewrite path_eqb_refl. Qed.
Lemma lookup_del_other p q f : p <> q -> lookup p (del q f) = lookup p f.
Proof.
  intros H. destruct p as [|a p]; [reflexivity|]. unfold del.
  rewrite (lookup_filter (a :: p) f (fun x => negb (path_eqb q x))) by easy.
  destruct (path_eqb q (a :: p)) eqn:E; [apply path_eqb_eq in E; congruence|reflexivity].
Qed.
Lemma lookup_put_same p n f : p <> [] -> lookup p (put p n f) = Some n.
Proof. intros H. rewrite lookup_find by easy. cbn. now rewrite path_eqb_refl. Qed.
Lemma lookup_put_other p q n f : p <> q -> lookup p (put q n f) = lookup p f.
Proof.
  intros H. destruct p as [|a p]; [reflexivity|]. rewrite lookup_find by easy. unfold put; cbn [find].
  destruct (path_eqb (a :: p) q) eqn:E; [apply path_eqb_eq in E; congruence|]. rewrite <- lookup_find by easy. now apply lookup_del_other.
Qed.

Lemma keys_filter (f : fs) (keep : path -> bool) : keys (filter (fun e => keep (fst e)) f) = filter keep (keys f).
Proof. induction f as [|[q m] f IH]; [reflexivity|]. cbn. destruct (keep q); cbn; unfold keys in IH; now rewrite IH. Qed.
Lemma nodup_filter (f : fs) (keep : path -> bool) : NoDup (keys f) -> NoDup (keys (filter (fun e => keep (fst e)) f)).
Proof. intros H. pose proof (keys_filter f keep) as E. unfold keys, fs in *. rewrite E. now apply NoDup_filter. Qed.
Lemma nodup_del p f : NoDup (keys f) -> NoDup (keys (del p f)).
Proof. apply (nodup_filter f (fun q => negb (path_eqb p q))). Qed.
Lemma nodup_put p n f : NoDup (keys f) -> NoDup (keys (put p n f)).
Proof.
  intros H. change (NoDup (p :: keys (del p f))). constructor; [|now apply nodup_del].
  unfold del. rewrite (keys_filter f (fun q => negb (path_eqb p q))). intros Hin. apply filter_In in Hin as [_ E].
  rewrite path_eqb_refl in E; discriminate.
Qed.

(** MkdirAll *)
Lemma mkdirs_nodup l : forall f f', mkdirs l f = Some f' -> NoDup (keys f) -> NoDup (keys f').
Proof.
  induction l as [|q l IH]; cbn; intros f f'; [now intros [= ->]|].
  destruct (lookup q f) as [[|b]|]; [apply IH|discriminate|]. intros H Hn. eapply IH; [exact H|]. now apply nodup_put.
Qed.
Lemma mkdirs_keeps l : forall f f' p n, mkdirs l f = Some f' -> lookup p f = Some n -> lookup p f' = Some n.
Proof.
  induction l as [|q l IH]; cbn; intros f f' p n; [now intros [= ->]|].
  destruct (lookup q f) as [[|b]|] eqn:E; [apply IH|discriminate|]. intros H Hp. eapply IH; [exact H|].
  rewrite lookup_put_other; [exact Hp|]. intros ->. congruence.
Qed.
Lemma mkdirs_new l : forall f f' p, mkdirs l f = Some f' -> lookup p f = None -> lookup p f' = if existsb (path_eqb p) l then Some NDir else None.
Proof.
  induction l as [|q l IH]; cbn; intros f f' p; [now intros [= ->]|].
  destruct (lookup q f) as [[|b]|] eqn:E; [|discriminate|].
  - intros H Hp. destruct (path_eqb p q) eqn:Epq; [apply path_eqb_eq in Epq as ->; congruence|]. now apply (IH f).
  - intros H Hp. destruct (path_eqb p q) eqn:Epq.
    + apply path_eqb_eq in Epq as ->. cbn [orb]. eapply mkdirs_keeps; [exact H|]. apply lookup_put_same. now destruct q.
    + apply (IH _ _ _ H). rewrite lookup_put_other; [exact Hp|]. now apply path_eqb_neq.
Qed.
Lemma mkdirs_dir l : forall f f' p, mkdirs l f = Some f' -> In p l -> lookup p f' = Some NDir.
Proof.
  induction l as [|q l IH]; cbn; intros f f' p H; [easy|].
  destruct (lookup q f) as [[|b]|] eqn:E; [|discriminate|]; intros [->|Hin]; eauto using mkdirs_keeps.
  eapply mkdirs_keeps; [exact H|]. apply lookup_put_same. now destruct p.
Qed.
Lemma mkdirs_other l f f' p : mkdirs l f = Some f' -> ~ In p l -> lookup p f' = lookup p f.
Proof.
  intros H Hp. destruct (lookup p f) eqn:E; [eapply mkdirs_keeps; eauto|].
  rewrite (mkdirs_new _ _ _ _ H E). destruct (existsb (path_eqb p) l) eqn:Ex; [|easy].
  apply existsb_exists in Ex as (x & Hx & Ex). apply path_eqb_eq in Ex as ->. contradiction.
Qed.
Lemma prefixes_in q p : In q (prefixes p) <-> q <> [] /\ under_path q p = true.
Proof.
  revert q; induction p as [|a p IH]; intros q; cbn.
  - split; [easy|]. intros [H H']. now apply under_path_nil in H'.
  - split.
    + intros [<-|H]; [split; [easy|cbn; now rewrite bytes_eqb_refl]|]. apply in_map_iff in H as (r & <- & Hr).
      apply IH in Hr as [_ Hr]. split; [easy|]. cbn. now rewrite bytes_eqb_refl.
    + destruct q as [|b q]; [easy|]. cbn. rewrite andb_true_iff, bytes_eqb_eq. intros [_ [-> Hu]].
      destruct q as [|c q]; [now left|right]. apply in_map. apply IH. split; [easy|exact Hu].
Qed.
(** A call of MkdirAll, finished or not, only adds directories on the way to [p]. *)
Definition adds_dirs (p : path) (f f' : fs) : Prop :=
  (NoDup (keys f) -> NoDup (keys f')) /\
  forall q, lookup q f' = lookup q f \/ (lookup q f = None /\ lookup q f' = Some NDir /\ under_path q p = true).
Lemma mkdirs_adds l p f f' : (forall q, In q l -> under_path q p = true) -> mkdirs l f = Some f' -> adds_dirs p f f'.
Proof.
  intros Hl H. split; [now apply (mkdirs_nodup l)|]. intros q. destruct (lookup q f) eqn:E; [left; eauto using mkdirs_keeps|].
  rewrite (mkdirs_new _ _ _ _ H E). destruct (existsb (path_eqb q) l) eqn:Ex; [|now left]. right. repeat split.
  apply existsb_exists in Ex as (x & Hx & Ex). apply path_eqb_eq in Ex as ->. auto.
Qed.
Lemma mkdir_all_mid c p f : adds_dirs p f (ef_mid (mkdir_all c p f)).
Proof.
  cbn. destruct (mkdirs _ f) eqn:E; [|split; [easy|now left]].
  eapply mkdirs_adds; [|exact E]. intros q Hq.
  assert (In q (prefixes p)) by (rewrite <- (firstn_skipn (ch_part c)); apply in_app_iff; now left).
  now apply prefixes_in.
Qed.
Lemma mkdir_all_end c p f f' : ef_end (mkdir_all c p f) = Some f' -> adds_dirs p f f' /\ lookup p f' = Some NDir.
Proof.
  cbn. intros H. split; [eapply mkdirs_adds; [|exact H]; intros q Hq; now apply prefixes_in|].
  destruct p as [|a p]; [reflexivity|]. eapply mkdirs_dir; [exact H|]. apply prefixes_in. split; [easy|apply under_path_refl].
Qed.

(** Rename *)
Lemma under_path_skip p q : under_path p q = true -> q = p ++ skipn (List.length p) q.
Proof. rewrite under_path_iff. intros [r ->]. now rewrite skipn_app_exact. Qed.
Lemma move_key_iff src dst p q : under_path src dst = false -> under_path dst src = false ->
  under_path dst q = false ->
  path_eqb p (if under_path src q then dst ++ skipn (List.length src) q else q)
  = if under_path dst p then path_eqb (src ++ skipn (List.length dst) p) q
    else if under_path src p then false else path_eqb p q.
Proof.
  intros Hsd Hds Hq. destruct (under_path src q) eqn:Esq.
  - destruct (under_path dst p) eqn:Edp.
    + apply under_path_skip in Esq, Edp. set (a := skipn (List.length dst) p) in *. set (b := skipn (List.length src) q) in *. rewrite Edp, Esq.
      destruct (path_eqb a b) eqn:Eab.
      * apply path_eqb_eq in Eab as ->. now rewrite !path_eqb_refl.
      * apply path_eqb_neq in Eab. transitivity false; [|symmetry]; apply path_eqb_neq; intros H; apply app_inv_head in H; contradiction.
    + destruct (under_path src p) eqn:Esp; [|transitivity false; [|symmetry]]; apply path_eqb_neq; intros ->;
        [now rewrite under_path_app in Edp|now rewrite under_path_app in Edp|congruence].
  - destruct (under_path dst p) eqn:Edp.
    + transitivity false; [|symmetry]; apply path_eqb_neq; [intros ->; congruence|]. intros <-. now rewrite under_path_app in Esq.
    + destruct (under_path src p) eqn:Esp; [|reflexivity]. apply path_eqb_neq. intros ->; congruence.
Qed.
Lemma find_move src dst p f : under_path src dst = false -> under_path dst src = false ->
  find p (move src dst f) = if under_path dst p then find (src ++ skipn (List.length dst) p) f
                            else if under_path src p then None else find p f.
Proof.
  intros Hsd Hds. unfold move. induction f as [|[q m] f IH]; cbn [filter map find fst snd].
  - now destruct (under_path dst p), (under_path src p).
  - destruct (under_path dst q) eqn:Edq; cbn [negb].
    + rewrite IH. destruct (under_path dst p) eqn:Edp.
      * replace (path_eqb (src ++ skipn (List.length dst) p) q) with false; [reflexivity|]. symmetry. apply path_eqb_neq. intros <-.
        destruct (under_path_comparable dst src _ Edq (under_path_app _ _)); congruence.
      * destruct (under_path src p) eqn:Esp; [reflexivity|].
        replace (path_eqb p q) with false; [reflexivity|]. symmetry; apply path_eqb_neq. intros ->; congruence.
    + cbn [map find fst snd].
      assert (Hk := move_key_iff src dst p q Hsd Hds Edq).
      destruct (under_path src q) eqn:Esq; cbn [find fst snd]; rewrite Hk, IH; now destruct (under_path dst p), (under_path src p).
Qed.
Lemma lookup_move src dst p f : under_path src dst = false -> under_path dst src = false ->
  lookup p (move src dst f) = if under_path dst p then lookup (src ++ skipn (List.length dst) p) f
                              else if under_path src p then None else lookup p f.
Proof.
  intros Hsd Hds. assert (src <> []) by (intros ->; discriminate). assert (dst <> []) by (intros ->; discriminate).
  destruct p as [|a p].
  - cbn [lookup]. destruct (under_path dst []) eqn:E1; [apply under_path_nil in E1; contradiction|].
    destruct (under_path src []) eqn:E2; [apply under_path_nil in E2; contradiction|]. reflexivity.
  - rewrite !lookup_find; try easy; [now apply find_move|]. intros E. apply app_eq_nil in E as [E _]; contradiction.
Qed.
Lemma nodup_map_inj {A B} (g : A -> B) l : (forall x y, In x l -> In y l -> g x = g y -> x = y) -> NoDup l -> NoDup (map g l).
Proof.
  intros Hg Hn. induction Hn as [|x l Hx Hl IH]; cbn; constructor.
  - intros H. apply in_map_iff in H as (y & E & Hy). destruct Hx. rewrite (Hg x y); [exact Hy|now left|now right|congruence].
  - apply IH. intros; apply Hg; [now right|now right|easy].
Qed.
Lemma nodup_move src dst f : under_path src dst = false -> under_path dst src = false -> NoDup (keys f) -> NoDup (keys (move src dst f)).
Proof.
  intros Hsd Hds Hn. unfold move, keys. rewrite map_map.
  set (g := fun q => if under_path src q then dst ++ skipn (List.length src) q else q).
  rewrite (map_ext _ (fun e => g (fst e))) by (intros [q m]; unfold g; cbn; now destruct (under_path src q)).
  rewrite <- (map_map fst g). change (map fst (filter ?p f)) with (keys (filter p f)).
  rewrite (keys_filter f (fun q => negb (under_path dst q))).
  apply nodup_map_inj; [|now apply NoDup_filter]. intros x y Hx Hy. apply filter_In in Hx as [_ Hx], Hy as [_ Hy].
  apply negb_true_iff in Hx, Hy. unfold g. destruct (under_path src x) eqn:Ex, (under_path src y) eqn:Ey; intros E.
  - apply app_inv_head in E. apply under_path_skip in Ex, Ey. now rewrite Ex, Ey, E.
  - rewrite <- E, under_path_app in Hy; discriminate.
  - rewrite E, under_path_app in Hx; discriminate.
  - exact E.
Qed.

(** Names *)
Lemma plain_name_no_slash n : plain_name n = true -> ~ In "/"%byte n /\ n <> [] /\ n <> bs "." /\ n <> bs "..".
Proof.
  unfold plain_name. rewrite andb_true_iff, !negb_true_iff, !orb_false_iff, !bytes_eqb_neq. intros [[[H1 H2] H3] H4]. repeat split; try assumption.
  intros Hin. assert (existsb (beqb "/"%byte) n = true) by (apply existsb_exists; exists "/"%byte; split; [easy|reflexivity]). congruence.
Qed.
Lemma walk_plain p n : plain_name n = true -> walk p n = p ++ [n].
Proof.
  intros H. apply plain_name_no_slash in H as (_ & H1 & H2 & H3). unfold walk.
  apply bytes_eqb_neq in H1, H2, H3. now rewrite H1, H2, H3.
Qed.
Lemma join_plain base elems : forallb plain_name elems = true -> Fs.join base elems = base ++ elems.
Proof.
  revert base; induction elems as [|e l IH]; intros base; [now rewrite app_nil_r|].
  cbn [forallb]. rewrite andb_true_iff. intros [H1 H2]. unfold Fs.join in *. cbn [flat_map].
  rewrite split_on_clean by (now apply plain_name_no_slash). cbn [fold_left app]. rewrite walk_plain by easy.
  rewrite IH by easy. now rewrite <- app_assoc.
Qed.
