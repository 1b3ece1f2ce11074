(** Proofs about the model of net/url. *)
From Verif Require Import GoBase Strconv GoBaseProofs BencFields BencFieldsProofs Url UrlSpec.
From Coq Require Import Permutation.

(** ** Escaping *)
Lemma unescape_byte c rest : unescape true (escape_byte c ++ rest) = option_map (cons c) (unescape true rest).
Proof. destruct c; cbn [escape_byte]; cbv - [unescape]; cbn; destruct (unescape true rest); reflexivity. Qed.
Lemma unescape_escape s : query_unescape (query_escape s) = Some s.
Proof.
  unfold query_unescape, query_escape. induction s as [|c s IH]; [reflexivity|]. cbn [flat_map].
  rewrite unescape_byte, IH. reflexivity.
Qed.
Definition url_special (c : byte) : bool := existsb (beqb c) (bs "&;=#?") || (b2z c <? 33) || (b2z c =? 127).
Lemma escape_byte_clean c : forallb (fun c => negb (url_special c)) (escape_byte c) = true.
Proof. destruct c; vm_compute; reflexivity. Qed.
Lemma escape_clean s : Forall (fun c => url_special c = false) (query_escape s).
Proof.
  unfold query_escape. induction s as [|c s IH]; [constructor|]. cbn [flat_map]. apply Forall_app. split; [|exact IH].
  pose proof (escape_byte_clean c) as H. rewrite forallb_forall in H. apply Forall_forall. intros x I. apply H in I. destruct (url_special x); [discriminate|reflexivity].
Qed.
Lemma clean_not_in c s : Forall (fun c => url_special c = false) s -> url_special c = true -> ~ In c s.
Proof. rewrite Forall_forall. intros F H I. apply F in I. congruence. Qed.

(** ** Splitting and cutting *)
Lemma split_on_clean sep s : ~ In sep s -> split_on sep s = [s].
Proof.
  induction s as [|c s IH]; [reflexivity|]. intros N. cbn. rewrite IH by (intros I; apply N; right; exact I).
  destruct (beqb c sep) eqn:E; [apply beqb_eq in E; subst; exfalso; apply N; left; reflexivity|reflexivity].
Qed.
Lemma split_on_app sep s t : ~ In sep s -> split_on sep (s ++ sep :: t) = s :: split_on sep t.
Proof.
  induction s as [|c s IH]; intros N; cbn.
  - rewrite beqb_refl. reflexivity.
  - rewrite IH by (intros I; apply N; right; exact I).
    destruct (beqb c sep) eqn:E; [apply beqb_eq in E; subst; exfalso; apply N; left; reflexivity|reflexivity].
Qed.
Lemma split_on_join sep l : Forall (fun s => ~ In sep s) l -> l <> [] -> split_on sep (join sep l) = l.
Proof.
  induction l as [|s l IH]; [congruence|]. intros F _. inversion_clear F as [|? ? Hs Hl]. destruct l as [|s' l]; cbn [join].
  - apply split_on_clean, Hs.
  - rewrite split_on_app by exact Hs. f_equal. apply IH; [exact Hl|discriminate].
Qed.
Lemma split_on_nonnil sep s : split_on sep s <> [].
Proof. induction s as [|c s IH]; cbn; [discriminate|]. destruct (beqb c sep); [discriminate|]. destruct (split_on sep s); [congruence|discriminate]. Qed.
Lemma join_split_on sep s : join sep (split_on sep s) = s.
Proof.
  induction s as [|c s IH]; [reflexivity|]. cbn. destruct (beqb c sep) eqn:E.
  - apply beqb_eq in E. subst c. pose proof (split_on_nonnil sep s). destruct (split_on sep s) as [|x l]; [congruence|].
    cbn [join app]. cbn [join] in IH. rewrite IH. reflexivity.
  - destruct (split_on sep s) as [|x [|y l]]; cbn [join] in *; [subst; reflexivity|rewrite IH; reflexivity|]. cbn [app]. rewrite IH. reflexivity.
Qed.
Lemma split_on_free sep s x : In x (split_on sep s) -> ~ In sep x.
Proof.
  revert x. induction s as [|c s IH]; intros x; cbn; [intros [<-|[]] []|]. destruct (beqb c sep) eqn:E.
  - intros [<-|H]; [intros []|auto].
  - apply beqb_neq in E. pose proof (split_on_nonnil sep s). destruct (split_on sep s) as [|y l]; [congruence|].
    intros [<-|H']; [intros [<-|I]; [congruence|exact (IH y (or_introl eq_refl) I)]|apply IH; right; exact H'].
Qed.
Lemma cut_app sep a b : ~ In sep a -> cut sep (a ++ sep :: b) = (a, b).
Proof.
  induction a as [|c a IH]; intros N; cbn; [rewrite beqb_refl; reflexivity|].
  rewrite IH by (intros I; apply N; right; exact I).
  destruct (beqb c sep) eqn:E; [apply beqb_eq in E; subst; exfalso; apply N; left; reflexivity|reflexivity].
Qed.
Lemma cut_none sep a : ~ In sep a -> cut sep a = (a, []).
Proof.
  induction a as [|c a IH]; intros N; cbn; [reflexivity|]. rewrite IH by (intros I; apply N; right; exact I).
  destruct (beqb c sep) eqn:E; [apply beqb_eq in E; subst; exfalso; apply N; left; reflexivity|reflexivity].
Qed.
Lemma cut_cases sep s : (~ In sep s /\ cut sep s = (s, [])) \/ exists a b, s = a ++ sep :: b /\ ~ In sep a /\ cut sep s = (a, b).
Proof.
  induction s as [|c s IH]; [left; split; [intros []|reflexivity]|]. cbn [cut]. destruct (beqb c sep) eqn:E.
  - right. apply beqb_eq in E. subst c. exists [], s. repeat split; auto.
  - apply beqb_neq in E. destruct IH as [(N & ->)|(a & b & -> & Na & ->)].
    + left. split; [|reflexivity]. intros [->|I]; congruence.
    + right. exists (c :: a), b. repeat split; auto. intros [->|I]; congruence.
Qed.
Lemma existsb_beqb c s : existsb (beqb c) s = true <-> In c s.
Proof.
  rewrite existsb_exists. split; [intros (x & I & E); apply beqb_eq in E; subst; exact I|]. intros I. exists c. split; [exact I|apply beqb_refl].
Qed.
Lemma existsb_beqb_not c s : existsb (beqb c) s = false <-> ~ In c s.
Proof. rewrite <- existsb_beqb. destruct (existsb (beqb c) s); split; congruence. Qed.

(** ** Percent encoding against its specification *)
Lemma unhex_value c v : unhex c = Some v <-> hex_value c v.
Proof.
  unfold unhex, hex_value, is_digit, in_range. pose proof (b2z_range c).
  destruct ((48 <=? b2z c) && (b2z c <=? 57)) eqn:A; [split; [intros [= <-]; lia|intros; f_equal; lia]|].
  destruct ((97 <=? b2z c) && (b2z c <=? 102)) eqn:B; [split; [intros [= <-]; lia|intros; f_equal; lia]|].
  destruct ((65 <=? b2z c) && (b2z c <=? 70)) eqn:D; [split; [intros [= <-]; lia|intros; f_equal; lia]|].
  split; [discriminate|lia].
Qed.
Lemma hex_value_range c v : hex_value c v -> 0 <= v < 16.
Proof. unfold hex_value. lia. Qed.
Lemma unescape_percent e : forall s, query_unescape e = Some s <-> percent e s.
Proof.
  unfold query_unescape. remember (List.length e) as n eqn:En. assert (List.length e <= n)%nat as L by lia. clear En.
  revert e L. induction n as [|n IH]; intros e L s.
  { destruct e; [|cbn in L; lia]. cbn. split; [intros [= <-]; constructor|intros H; inversion H; reflexivity]. }
  destruct e as [|c e]; [cbn; split; [intros [= <-]; constructor|intros H; inversion H; reflexivity]|].
  cbn [unescape]. destruct (beqb c "%") eqn:P.
  - apply beqb_eq in P. subst c. split.
    + destruct e as [|a [|b e]]; try discriminate. destruct (unhex a) as [x|] eqn:A; [|discriminate]. destruct (unhex b) as [y|] eqn:B; [|discriminate].
      destruct (unescape true e) as [r|] eqn:R; [|discriminate]. intros [= <-]. apply unhex_value in A, B.
      eapply pc_hex; eauto; [|apply IH; [cbn in L; lia|exact R]].
      rewrite b2z_z2b. apply Z.mod_small. apply hex_value_range in A, B. lia.
    + intros H. inversion H as [|?|a b x y c' e' s' A B Ec Pe|]; subst; [|congruence].
      apply unhex_value in A as A', B as B'. rewrite A', B'. apply IH in Pe; [|cbn in L; lia]. rewrite Pe. do 2 f_equal.
      rewrite <- Ec. apply z2b_b2z.
  - apply beqb_neq in P. destruct (beqb c "+") eqn:Q.
    + apply beqb_eq in Q. subst c. cbn [andb]. split.
      * destruct (unescape true e) as [r|] eqn:R; [|discriminate]. cbn. intros [= <-]. constructor. apply IH; [cbn in L; lia|exact R].
      * intros H. inversion H; subst; [|congruence]. match goal with X : percent _ _ |- _ => apply IH in X; [rewrite X; reflexivity|cbn in L; lia] end.
    + apply beqb_neq in Q. cbn [andb]. split.
      * destruct (unescape true e) as [r|] eqn:R; [|discriminate]. cbn. intros [= <-]. apply pc_plain; auto. apply IH; [cbn in L; lia|exact R].
      * intros H. inversion H; subst; try congruence. match goal with X : percent _ _ |- _ => apply IH in X; [rewrite X; reflexivity|cbn in L; lia] end.
Qed.
Lemma parse_piece_means seg k v : seg <> [] -> (parse_piece seg = Some (k, v) <-> piece_means seg k v).
Proof.
  intros Ns. unfold parse_piece, piece_means. destruct (existsb (beqb ";") seg) eqn:S.
  { apply existsb_beqb in S. split; [discriminate|tauto]. }
  apply existsb_beqb_not in S. destruct (cut_cases "="%byte seg) as [(N & ->)|(a & b & -> & Na & ->)].
  - split.
    + destruct (query_unescape seg) as [k'|] eqn:K; [|discriminate]. cbn. intros [= -> <-]. apply unescape_percent in K. repeat split; auto.
    + intros (_ & _ & [(ek & ev & -> & _)|(_ & P & ->)]); [exfalso; apply N; apply in_or_app; right; left; reflexivity|].
      apply unescape_percent in P. rewrite P. reflexivity.
  - split.
    + destruct (query_unescape a) as [k'|] eqn:K; [|discriminate]. destruct (query_unescape b) as [v'|] eqn:V; [|discriminate].
      intros [= -> ->]. apply unescape_percent in K, V. repeat split; auto. left. eauto 6.
    + intros (_ & _ & [(ek & ev & E & Ne & P & Q)|(N & _)]); [|exfalso; apply N; apply in_or_app; right; left; reflexivity].
      assert (cut "="%byte (a ++ "="%byte :: b) = cut "="%byte (ek ++ "="%byte :: ev)) as C by (rewrite E; reflexivity).
      rewrite !cut_app in C by assumption. injection C as -> ->. apply unescape_percent in P, Q. rewrite P, Q. reflexivity.
Qed.

(** ** Collecting values *)
Lemma values_all_add k k' v m : values_all k (values_add k' v m) = if bytes_eqb k k' then values_all k m ++ [v] else values_all k m.
Proof.
  unfold values_add. destruct (bytes_eqb k k') eqn:E.
  - apply bytes_eqb_eq in E. subst k'. unfold values_all at 1. rewrite assoc_set_same. reflexivity.
  - apply bytes_eqb_neq in E. unfold values_all. rewrite assoc_set_other by congruence. reflexivity.
Qed.
Definition parse_step (acc : values * bool) (seg : bytes) : values * bool :=
  match seg with
  | [] => acc
  | _ => match parse_piece seg with
         | Some (k, v) => (values_add k v (fst acc), snd acc)
         | None => (fst acc, true)
         end
  end.
Lemma parse_query_steps q : parse_query q = fold_left parse_step (split_on "&"%byte q) ([], false).
Proof. reflexivity. Qed.
Lemma steps_values segs ps : pairs_of segs ps -> forall acc k, values_all k (fst (fold_left parse_step segs acc)) = values_all k (fst acc) ++ all_values k ps.
Proof.
  induction 1 as [|seg segs k0 v ps H P IH|seg segs ps H P IH]; intros acc k; cbn [fold_left].
  - rewrite app_nil_r. reflexivity.
  - rewrite IH. assert (seg <> []) as N by (destruct H; assumption). apply (parse_piece_means _ _ _ N) in H. unfold parse_step.
    destruct seg as [|c seg]; [congruence|]. rewrite H. cbn [fst]. rewrite values_all_add. cbn [all_values].
    destruct (bytes_eqb k k0); [rewrite <- app_assoc; reflexivity|reflexivity].
  - rewrite IH. unfold parse_step. destruct seg as [|c seg]; [reflexivity|]. destruct (parse_piece (c :: seg)) as [[k' v']|] eqn:E; [|reflexivity].
    apply parse_piece_means in E; [|discriminate]. apply H in E. contradiction.
Qed.
Lemma pieces_split q segs : pieces q segs <-> split_on "&"%byte q = segs.
Proof.
  split.
  - induction 1 as [seg N|seg q segs N P IH]; [apply split_on_clean, N|rewrite split_on_app by exact N; f_equal; exact IH].
  - intros E. rewrite <- (join_split_on "&"%byte q). rewrite E.
    assert (forall x, In x segs -> ~ In "&"%byte x) as F by (subst segs; apply split_on_free).
    assert (segs <> []) as N by (subst segs; apply split_on_nonnil). clear E. induction segs as [|s segs IH]; [congruence|].
    destruct segs as [|s' segs]; cbn [join].
    + constructor. apply F. left. reflexivity.
    + constructor; [apply F; left; reflexivity|]. apply IH; [intros x I; apply F; right; exact I|discriminate].
Qed.
Theorem parse_query_means q ps k : query_means q ps -> values_all k (fst (parse_query q)) = all_values k ps.
Proof.
  intros (segs & P & M). apply pieces_split in P. rewrite parse_query_steps, P, (steps_values _ _ M). reflexivity.
Qed.
Lemma pairs_of_total segs : exists ps, pairs_of segs ps.
Proof.
  induction segs as [|s segs (ps & IH)]; [eexists; constructor|]. destruct s as [|c s].
  - exists ps. apply po_bad; [|exact IH]. intros k v (H & _). congruence.
  - destruct (parse_piece (c :: s)) as [[k v]|] eqn:E.
    + exists ((k, v) :: ps). constructor; [apply parse_piece_means; [discriminate|exact E]|exact IH].
    + exists ps. apply po_bad; [|exact IH]. intros k v H. apply parse_piece_means in H; [congruence|discriminate].
Qed.
Theorem query_means_total q : exists ps, query_means q ps.
Proof. destruct (pairs_of_total (split_on "&"%byte q)) as (ps & H). exists ps, (split_on "&"%byte q). split; [apply pieces_split; reflexivity|exact H]. Qed.

Definition pairs_text (ps : list (bytes * bytes)) : bytes := join "&"%byte (map (fun kv => pair_text (fst kv) (snd kv)) ps).
Lemma parse_piece_pair k v : parse_piece (pair_text k v) = Some (k, v).
Proof.
  unfold parse_piece, pair_text. pose proof (escape_clean k) as K. pose proof (escape_clean v) as V.
  replace (existsb (beqb ";") (query_escape k ++ "="%byte :: query_escape v)) with false.
  - rewrite cut_app by (apply clean_not_in; [exact K|reflexivity]). rewrite !unescape_escape. reflexivity.
  - symmetry. apply existsb_beqb_not. intros I. apply in_app_or in I as [I|[I|I]]; [|discriminate|];
      [exact (clean_not_in ";"%byte _ K eq_refl I)|exact (clean_not_in ";"%byte _ V eq_refl I)].
Qed.
Lemma pair_text_clean k v : ~ In "&"%byte (pair_text k v).
Proof.
  unfold pair_text. pose proof (escape_clean k) as K. pose proof (escape_clean v) as V.
  intros I. apply in_app_or in I as [I|[I|I]]; [|discriminate|]; [exact (clean_not_in "&"%byte _ K eq_refl I)|exact (clean_not_in "&"%byte _ V eq_refl I)].
Qed.
Lemma pair_text_nonnil k v : pair_text k v <> [].
Proof. unfold pair_text. intros E. apply app_eq_nil in E as [_ E]. discriminate. Qed.
Lemma parse_pairs ps : ps <> [] -> parse_query (pairs_text ps) = (fold_left (fun m kv => values_add (fst kv) (snd kv) m) ps [], false).
Proof.
  intros N. rewrite parse_query_steps. unfold pairs_text. rewrite split_on_join.
  - clear N. assert (forall m, fold_left parse_step (map (fun kv => pair_text (fst kv) (snd kv)) ps) (m, false) =
                     (fold_left (fun m kv => values_add (fst kv) (snd kv) m) ps m, false)) as H; [|apply H].
    induction ps as [|[k v] ps IH]; intros m; [reflexivity|]. cbn [map fold_left]. rewrite <- IH. f_equal.
    unfold parse_step. cbn [fst snd]. pose proof (pair_text_nonnil k v). destruct (pair_text k v) eqn:E; [congruence|]. rewrite <- E, parse_piece_pair. reflexivity.
  - apply Forall_map, Forall_forall. intros [k v] _. apply pair_text_clean.
  - destruct ps; [congruence|discriminate].
Qed.
Theorem pairs_text_means ps : ps <> [] -> query_means (pairs_text ps) ps.
Proof.
  intros N. exists (map (fun kv => pair_text (fst kv) (snd kv)) ps). split.
  - apply pieces_split. apply split_on_join; [|destruct ps; [congruence|discriminate]]. apply Forall_map, Forall_forall. intros [k v] _. apply pair_text_clean.
  - clear N. induction ps as [|[k v] ps IH]; cbn; constructor; auto. apply parse_piece_means; [apply pair_text_nonnil|apply parse_piece_pair].
Qed.
Lemma all_values_fold ps : forall k m, values_all k (fold_left (fun m kv => values_add (fst kv) (snd kv) m) ps m) = values_all k m ++ all_values k ps.
Proof.
  induction ps as [|[k' v] ps IH]; intros k m; cbn [fold_left]; [rewrite app_nil_r; reflexivity|].
  rewrite IH, values_all_add. cbn [fst snd all_values]. destruct (bytes_eqb k k'); [rewrite <- app_assoc; reflexivity|reflexivity].
Qed.
Lemma all_values_in ps k v : NoDup (map fst ps) -> In (k, v) ps -> all_values k ps = [v].
Proof.
  induction ps as [|[k' v'] ps IH]; [intros _ []|]. cbn. intros N. apply NoDup_cons_iff in N as [N1 N2]. intros [[= -> ->]|I].
  - rewrite bytes_eqb_refl. f_equal. clear - N1. induction ps as [|[k' v'] ps IH]; [reflexivity|]. cbn in *.
    destruct (bytes_eqb k k') eqn:E; [apply bytes_eqb_eq in E; subst; tauto|tauto].
  - destruct (bytes_eqb k k') eqn:E; [|auto]. apply bytes_eqb_eq in E. subst k'. exfalso. apply N1. apply (in_map fst) in I. exact I.
Qed.
Lemma all_values_none ps k : ~ In k (map fst ps) -> all_values k ps = [].
Proof.
  induction ps as [|[k' v'] ps IH]; [reflexivity|]. cbn. intros N. destruct (bytes_eqb k k') eqn:E; [apply bytes_eqb_eq in E; subst; tauto|tauto].
Qed.
