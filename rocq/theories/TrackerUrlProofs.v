(** Proofs about the request sent to a tracker. *)
From Verif Require Import GoBase Strconv GoBaseProofs StrconvProofs BencFields BencFieldsProofs Url UrlSpec UrlProofs Tracker TrackerSpec TrackerProofs TrackerUrl TrackerUrlSpec.
From Coq Require Import Permutation.

(** *** Bytes *)
Lemma in_bs c s : In c s -> existsb (beqb c) s = true.
Proof. intros I. apply existsb_exists. exists c. split; [exact I|]. apply beqb_refl. Qed.
Lemma letter_b c : letter c -> is_letter c = true.
Proof. unfold letter, is_letter, in_range. intros [H|H]; apply orb_true_iff; [left|right]; apply andb_true_iff; split; apply Z.leb_le; lia. Qed.
Lemma digit_b c : digit c -> is_digit c = true.
Proof. unfold digit, is_digit. intros H. apply andb_true_iff; split; apply Z.leb_le; lia. Qed.
Lemma host_b c : unreserved c -> host_byte c = true.
Proof. unfold host_byte, is_alnum. intros [H|[H|H]]; [rewrite (letter_b c H)|rewrite (digit_b c H), orb_true_r|rewrite (in_bs c _ H), orb_true_r]; reflexivity. Qed.
Lemma hex_b c v : hex_value c v -> exists w, unhex c = Some w.
Proof. intros H. apply unhex_value in H. eauto. Qed.
Definition hexb (c : byte) : bool := match unhex c with Some _ => true | None => false end.
Lemma hex_bb c v : hex_value c v -> hexb c = true.
Proof. intros H. apply unhex_value in H. unfold hexb. now rewrite H. Qed.
(** Bytes that may stand before the query. *)
Definition safe (c : byte) : bool := negb (beqb c "#"%byte || beqb c "?"%byte || (b2z c <? 32) || (b2z c =? 127)).
Ltac bytes_all := intros c; destruct c; vm_compute; intros; try discriminate; try reflexivity.
Lemma host_safe : forall c, host_byte c = true -> safe c = true. Proof. bytes_all. Qed.
Lemma digit_safe : forall c, is_digit c = true -> safe c = true. Proof. bytes_all. Qed.
Lemma host_noslash : forall c, host_byte c = true -> beqb c "/"%byte = false. Proof. bytes_all. Qed.
Lemma host_nocolon : forall c, host_byte c = true -> beqb c ":"%byte = false. Proof. bytes_all. Qed.
Lemma digit_noslash : forall c, is_digit c = true -> beqb c "/"%byte = false. Proof. bytes_all. Qed.
Lemma hex_safe : forall c, hexb c = true -> safe c = true. Proof. bytes_all. Qed.
Lemma hex_valid : forall c, hexb c = true -> escaped_in_path c = false. Proof. bytes_all. Qed.
Definition pathb (c : byte) : bool := host_byte c || existsb (beqb c) (bs "/!$&'()*+,;=:@").
Lemma path_b c : unreserved c \/ In c (bs "/!$&'()*+,;=:@") -> pathb c = true.
Proof. unfold pathb. intros [H|H]; [rewrite (host_b c H); reflexivity|rewrite (in_bs c _ H), orb_true_r; reflexivity]. Qed.
Lemma pathb_safe : forall c, pathb c = true -> safe c = true. Proof. bytes_all. Qed.
Lemma pathb_valid : forall c, pathb c = true -> existsb (beqb c) (bs "!$&'()*+,;=:@[]%") || negb (escaped_in_path c) = true. Proof. bytes_all. Qed.
Lemma pathb_nopercent : forall c, pathb c = true -> beqb c "%"%byte = false. Proof. bytes_all. Qed.
Definition schemeb (c : byte) : bool := is_letter c || (is_digit c || existsb (beqb c) (bs "+-.")).
Lemma scheme_safe : forall c, schemeb c = true -> safe c = true. Proof. bytes_all. Qed.
Lemma letter_scheme : forall c, is_letter c = true -> schemeb c = true. Proof. bytes_all. Qed.
Lemma lower_schemeb : forall c, schemeb c = true -> schemeb (lower_byte c) = true. Proof. bytes_all. Qed.
Lemma safe_b c : safe c = true -> c <> "#"%byte /\ c <> "?"%byte /\ (b2z c <? 32) || (b2z c =? 127) = false.
Proof.
  unfold safe. intros H. apply negb_true_iff in H. apply orb_false_iff in H as (H & H4). apply orb_false_iff in H as (H & H3). apply orb_false_iff in H as (H1 & H2).
  repeat split; try (intros ->; discriminate). apply orb_false_iff. auto.
Qed.
Lemma all_safe (P : byte -> bool) s : (forall c, P c = true -> safe c = true) -> Forall (fun c => P c = true) s -> Forall (fun c => safe c = true) s.
Proof. intros H F. eapply Forall_impl; [|exact F]. exact H. Qed.
Lemma safe_ctl s : Forall (fun c => safe c = true) s -> has_ctl s = false.
Proof. unfold has_ctl. induction 1 as [|c s H F IH]; [reflexivity|]. cbn [existsb]. rewrite IH, orb_false_r. exact (proj2 (proj2 (safe_b c H))). Qed.
Lemma query_ctl q : query_text q -> has_ctl q = false.
Proof. unfold has_ctl. induction 1 as [|c s (H1 & H2 & _) F IH]; [reflexivity|]. cbn [existsb]. rewrite IH, orb_false_r. apply orb_false_iff. split; [apply Z.ltb_ge; lia|apply Z.eqb_neq; exact H2]. Qed.
Lemma ctl_app a b : has_ctl (a ++ b) = has_ctl a || has_ctl b.
Proof. apply existsb_app. Qed.

(** *** The pieces *)
Lemma host_good h : host_text h -> h <> [] /\ Forall (fun c => safe c = true) h /\ plain_host h = true /\ forall p, (p = [] \/ exists p', p = "/"%byte :: p') -> split_authority (h ++ p) = (h, p).
Proof.
  intros (name & Nn & Fn & H).
  assert (Fb : Forall (fun c => host_byte c = true) name) by (eapply Forall_impl; [|exact Fn]; exact host_b).
  assert (SP : forall t p, Forall (fun c => beqb c "/"%byte = false) t -> (p = [] \/ exists p', p = "/"%byte :: p') -> split_authority (t ++ p) = (t, p)).
  { intros t p F Hp. induction F as [|c t E F IH]; [destruct Hp as [->|(p' & ->)]; reflexivity|]. cbn [app split_authority]. rewrite E, IH. reflexivity. }
  assert (NC : ~ In ":"%byte name). { intros I. rewrite Forall_forall in Fb. apply Fb in I. discriminate. }
  assert (FA : forallb host_byte name = true) by (apply forallb_forall; rewrite Forall_forall in Fb; exact Fb).
  destruct H as [->|(port & Np & Fp & ->)].
  - split; [exact Nn|]. split; [eapply all_safe; [exact host_safe|exact Fb]|]. split.
    + unfold plain_host. rewrite cut_none by exact NC. rewrite FA. rewrite (proj2 (existsb_beqb_not ":"%byte name) NC). reflexivity.
    + intros p Hp. apply SP; [|exact Hp]. eapply Forall_impl; [|exact Fb]. exact host_noslash.
  - assert (Fd : Forall (fun c => is_digit c = true) port) by (eapply Forall_impl; [|exact Fp]; exact digit_b).
    split; [destruct name; discriminate|]. split; [|split].
    + apply Forall_app. split; [eapply all_safe; [exact host_safe|exact Fb]|]. constructor; [reflexivity|]. eapply all_safe; [exact digit_safe|exact Fd].
    + unfold plain_host. rewrite cut_app by exact NC. rewrite FA. replace (existsb (beqb ":"%byte) (name ++ ":"%byte :: port)) with true.
      2:{ symmetry. apply existsb_beqb. apply in_or_app. right. now left. }
      replace (bytes_eqb port []) with false by (destruct port; [contradiction|reflexivity]). cbn [andb negb]. apply forallb_forall. rewrite Forall_forall in Fd. exact Fd.
    + intros p Hp. apply SP; [|exact Hp]. apply Forall_app. split; [eapply Forall_impl; [|exact Fb]; exact host_noslash|]. constructor; [reflexivity|]. eapply Forall_impl; [|exact Fd]. exact digit_noslash.
Qed.
Lemma chars_good p : path_chars p -> Forall (fun c => safe c = true) p /\ valid_encoded p = true /\ exists s, unescape false p = Some s /\ (p <> [] -> s <> []).
Proof.
  induction 1 as [|c p H Hp (IH1 & IH2 & s & IH3 & _)|a b x y p Ha Hb Hp (IH1 & IH2 & s & IH3 & _)].
  - split; [constructor|]. split; [reflexivity|]. exists []. split; [reflexivity|congruence].
  - apply path_b in H. split; [constructor; [apply pathb_safe, H|exact IH1]|]. split.
    + unfold valid_encoded in *. cbn [forallb]. rewrite IH2, andb_true_r. apply pathb_valid, H.
    + exists (c :: s). split; [|discriminate]. cbn [unescape]. rewrite (pathb_nopercent c H), IH3. reflexivity.
  - pose proof (hex_bb _ _ Ha) as Ea. pose proof (hex_bb _ _ Hb) as Eb. split; [repeat (apply Forall_cons); [reflexivity|apply hex_safe, Ea|apply hex_safe, Eb|exact IH1]|]. split.
    + unfold valid_encoded in *. cbn [forallb]. rewrite IH2, (hex_valid a Ea), (hex_valid b Eb). cbn [negb]. rewrite !orb_true_r. reflexivity.
    + apply unhex_value in Ha, Hb. exists (z2b (16 * x + y) :: s). split; [|discriminate]. cbn [unescape]. change (beqb "%" "%") with true. cbn iota. rewrite Ha, Hb, IH3. reflexivity.
Qed.
Lemma path_good p : path_text p -> Forall (fun c => safe c = true) p /\ valid_encoded p = true /\ exists s, unescape false p = Some s /\ (p <> [] -> s <> []).
Proof.
  intros [->|(p' & -> & H)].
  - split; [constructor|]. split; [reflexivity|]. exists []. split; [reflexivity|congruence].
  - apply chars_good. constructor; [right; now left|exact H].
Qed.
Lemma escaped_path_eq u p : valid_encoded p = true -> set_path p = Some (u_path u, u_rawpath u) -> escaped_path u = p.
Proof.
  intros V H. unfold set_path in H. destruct (unescape false p) as [s|] eqn:E; [|discriminate]. injection H as H1 H2. unfold escaped_path. rewrite <- H1, <- H2. clear H1 H2.
  destruct (bytes_eqb p (path_escape s)) eqn:B; [apply bytes_eqb_eq in B; symmetry; exact B|].
  destruct p as [|c p]; [cbn in E; injection E as <-; discriminate|]. rewrite V, E, bytes_eqb_refl. reflexivity.
Qed.
Lemma frag_good f : fragment_text f -> exists s, unescape false f = Some s.
Proof.
  induction 1 as [|c f H Hf (s & IH)|a b x y f Ha Hb Hf (s & IH)]; [eexists; reflexivity| |].
  - exists (c :: s). cbn [unescape]. destruct (beqb c "%"%byte) eqn:E; [apply beqb_eq in E; contradiction|]. rewrite IH. reflexivity.
  - apply unhex_value in Ha, Hb. eexists. cbn [unescape]. change (beqb "%" "%") with true. cbn iota. rewrite Ha, Hb, IH. reflexivity.
Qed.
Lemma scheme_good s : scheme_text s -> s <> [] /\ Forall (fun c => schemeb c = true) s /\ forall raw rest, get_scheme raw [] (s ++ ":"%byte :: rest) = Some (s, rest).
Proof.
  intros (c & s' & -> & Hc & F). apply letter_b in Hc. assert (Fb : Forall (fun c => schemeb c = true) s').
  { eapply Forall_impl; [|exact F]. intros a [H|[H|H]]; unfold schemeb; [rewrite (letter_b a H)|rewrite (digit_b a H), orb_true_r|rewrite (in_bs a _ H), !orb_true_r]; reflexivity. }
  split; [discriminate|]. split; [constructor; [apply letter_scheme, Hc|exact Fb]|]. intros raw rest. cbn [app get_scheme]. rewrite Hc. cbn [app].
  assert (G : forall seen, seen <> [] -> get_scheme raw seen (s' ++ ":"%byte :: rest) = Some (seen ++ s', rest)).
  { clear F Hc c. induction Fb as [|a s' Ha Fb IH]; intros seen Ns.
    - cbn. destruct seen; [contradiction|]. rewrite app_nil_r. reflexivity.
    - cbn [app get_scheme]. unfold schemeb in Ha. destruct (is_letter a).
      + rewrite IH by (destruct seen; discriminate). rewrite <- app_assoc. reflexivity.
      + cbn [orb] in Ha. rewrite Ha. destruct seen as [|x seen]; [contradiction|]. rewrite IH by discriminate. rewrite <- app_assoc. reflexivity. }
  rewrite G by discriminate. reflexivity.
Qed.
Lemma split_query_none b : ~ In "?"%byte b -> split_query b = (b, [], false).
Proof.
  intros N. unfold split_query. replace (ends_with_only_qmark b) with false; [rewrite cut_none by exact N; reflexivity|]. unfold ends_with_only_qmark. destruct (rev b) as [|c r] eqn:E; [reflexivity|].
  destruct (beqb c "?"%byte) eqn:B; [|reflexivity]. apply beqb_eq in B. subst c. exfalso. apply N. apply in_rev. rewrite E. now left.
Qed.
Lemma split_query_some b q : ~ In "?"%byte b -> split_query (b ++ "?"%byte :: q) = (b, q, match q with [] => true | _ => false end).
Proof.
  intros N. unfold split_query. destruct q as [|c q].
  - replace (ends_with_only_qmark (b ++ ["?"%byte])) with true.
    2:{ unfold ends_with_only_qmark. rewrite rev_app_distr. cbn [rev app]. change (beqb "?" "?") with true. cbn [andb]. symmetry. apply negb_true_iff, existsb_beqb_not. intros I. apply N. apply in_rev. exact I. }
    rewrite app_length. cbn [List.length]. replace (List.length b + 1 - 1)%nat with (List.length b) by lia. rewrite firstn_app, Nat.sub_diag, firstn_all. cbn. rewrite app_nil_r. reflexivity.
  - replace (ends_with_only_qmark (b ++ "?"%byte :: c :: q)) with false; [rewrite cut_app by exact N; reflexivity|].
    unfold ends_with_only_qmark. rewrite rev_app_distr. cbn [rev]. destruct (rev q ++ [c]) as [|x r] eqn:E; [destruct (rev q); discriminate|]. cbn [app]. symmetry. apply andb_false_iff. right.
    apply negb_false_iff, existsb_beqb. apply in_or_app. left. apply in_or_app. right. now left.
Qed.
Lemma parse_text s h p q f : scheme_text s -> host_text h -> path_text p -> opt_ok query_text q -> opt_ok fragment_text f ->
  exists pa rp, set_path p = Some (pa, rp) /\ (p <> [] -> pa <> []) /\
  url_parse (url_text s h p q f) = POk {| u_scheme := map lower_byte s; u_host := h; u_path := pa; u_rawpath := rp; u_force := match q with Some [] => true | _ => false end; u_query := match q with Some t => t | None => [] end |}.
Proof.
  intros Hs Hh Hp Hq Hf. destruct (scheme_good s Hs) as (Ns & Fs & Gs). destruct (host_good h Hh) as (Nh & Fh & Ph & Sh). destruct (path_good p Hp) as (Fp & Vp & sp & Up & Ep).
  exists sp, (if bytes_eqb p (path_escape sp) then [] else p). assert (SP : set_path p = Some (sp, if bytes_eqb p (path_escape sp) then [] else p)) by (unfold set_path; now rewrite Up).
  split; [exact SP|]. split; [exact Ep|].
  set (b := bs "//" ++ h ++ p). assert (Fb : Forall (fun c => safe c = true) b) by (unfold b; apply Forall_app; split; [repeat (apply Forall_cons || apply Forall_nil); reflexivity|]; apply Forall_app; split; assumption).
  assert (Fq : has_ctl (opt "?"%byte q) = false /\ ~ In "#"%byte (opt "?"%byte q)).
  { destruct q as [q|]; [|split; [reflexivity|intros []]]. specialize (Hq q eq_refl). cbn [opt]. split; [change (has_ctl ("?"%byte :: q)) with (has_ctl q); apply query_ctl, Hq|]. intros [E|I]; [discriminate|]. unfold query_text in Hq. rewrite Forall_forall in Hq. apply Hq in I. tauto. }
  assert (Nb : ~ In "?"%byte b) by (intros I; rewrite Forall_forall in Fb; apply Fb in I; discriminate).
  set (u := s ++ ":"%byte :: b ++ opt "?"%byte q).
  assert (Nu : ~ In "#"%byte u).
  { unfold u. intros I. apply in_app_or in I as [I|[E|I]]; [rewrite Forall_forall in Fs; apply Fs in I; discriminate|discriminate|]. apply in_app_or in I as [I|I]; [rewrite Forall_forall in Fb; apply Fb in I; discriminate|tauto]. }
  assert (Cu : has_ctl u = false).
  { unfold u. rewrite ctl_app. change (has_ctl (":"%byte :: b ++ opt "?"%byte q)) with (has_ctl (b ++ opt "?"%byte q)). rewrite ctl_app, (safe_ctl b Fb), (proj1 Fq). rewrite (safe_ctl s); [reflexivity|]. eapply all_safe; [exact scheme_safe|exact Fs]. }
  assert (Eu : url_text s h p q f = u ++ opt "#"%byte f) by (unfold url_text, u, b; change (bs "://") with (":"%byte :: bs "//"); rewrite <- !app_assoc; cbn [app]; rewrite <- !app_assoc; reflexivity).
  assert (CT : exists fr sf, cut "#"%byte (url_text s h p q f) = (u, fr) /\ unescape false fr = Some sf).
  { rewrite Eu. destruct f as [f|]; cbn [opt].
    - rewrite cut_app by exact Nu. destruct (frag_good f (Hf f eq_refl)) as (sf & E). eauto.
    - rewrite app_nil_r, cut_none by exact Nu. exists [], []. split; reflexivity. }
  destruct CT as (fr & sf & CT & UF). unfold url_parse. rewrite CT, Cu. unfold u at 2. rewrite Gs, UF. destruct s as [|c s]; [contradiction|].
  assert (SQ : split_query (b ++ opt "?"%byte q) = (b, match q with Some t => t | None => [] end, match q with Some [] => true | _ => false end)).
  { destruct q as [q|]; cbn [opt]; [rewrite split_query_some by exact Nb; destruct q; reflexivity|rewrite app_nil_r; apply split_query_none, Nb]. }
  rewrite SQ. unfold b. cbn [bs app]. cbn. rewrite Sh, Ph, SP. reflexivity.
  destruct Hp as [->|(p' & -> & _)]; [now left|right; eauto].
Qed.
Lemma encode_query r : query_text (request_encode r) /\ request_encode r <> [].
Proof.
  rewrite encode_pairs. assert (N : sort_by fst (sent r) <> []).
  { intros E. assert (I : In (bs "compact", if r_compact r then bs "1" else bs "0") (sent r)).
    { unfold sent. apply filter_In. split; [|destruct (r_compact r); reflexivity]. unfold request_params. do 8 right. now left. }
    apply (Permutation_in _ (Permutation_sym (sort_by_perm fst (sent r)))) in I. rewrite E in I. destruct I. }
  destruct (sort_by fst (sent r)) as [|kv l] eqn:E; [contradiction|]. clear N E. unfold pairs_text.
  assert (PT : forall kv, query_text (pair_text (fst kv) (snd kv))).
  { intros [k v]. cbn [fst snd]. unfold pair_text, query_text. assert (A : forall s, Forall (fun c => 32 <= b2z c /\ b2z c <> 127 /\ c <> "#"%byte) (query_escape s)).
    { intros s. eapply Forall_impl; [|apply escape_clean]. intros c H. unfold url_special in H. apply orb_false_iff in H as (H & H3). apply orb_false_iff in H as (H1 & H2).
      apply Z.ltb_ge in H2. apply Z.eqb_neq in H3. split; [lia|]. split; [exact H3|]. intros ->. discriminate. }
    apply Forall_app. split; [apply A|]. constructor; [vm_compute; repeat split; discriminate|apply A]. }
  split.
  - revert kv. induction l as [|kv' l IH]; intros kv; [cbn; apply PT|]. cbn [map join]. apply Forall_app. split; [apply PT|]. constructor; [vm_compute; repeat split; discriminate|]. apply IH.
  - destruct kv as [k v]. cbn [map]. cbn [fst snd]. pose proof (pair_text_nonnil k v) as Nn. destruct l; cbn [map join]; [exact Nn|]. destruct (pair_text k v); [contradiction|discriminate].
Qed.
Lemma lower_scheme s : scheme_text s -> scheme_text (map lower_byte s) /\ map lower_byte (map lower_byte s) = map lower_byte s.
Proof.
  assert (L1 : forall c, is_letter c = true -> is_letter (lower_byte c) = true) by bytes_all.
  assert (L2 : forall c, is_letter c = false -> lower_byte c = c) by bytes_all.
  assert (LL : forall c, is_letter c = true -> letter c).
  { intros c H. unfold is_letter, in_range in H. unfold letter. apply orb_true_iff in H as [H|H]; apply andb_true_iff in H as (A & B); apply Z.leb_le in A, B; lia. }
  assert (L3 : forall c, lower_byte (lower_byte c) = lower_byte c) by bytes_all.
  intros (c & s' & -> & Hc & F). split.
  - exists (lower_byte c), (map lower_byte s'). split; [reflexivity|]. split; [apply LL, L1, letter_b, Hc|]. induction F as [|a s' Ha F IH]; constructor; [|exact IH].
    destruct (is_letter a) eqn:E; [left; apply LL, L1, E|]. rewrite (L2 a E). exact Ha.
  - rewrite map_map. apply map_ext. exact L3.
Qed.
(** What is asked of a tracker. *)
Lemma ask_text s h p q f r : scheme_text s -> host_text h -> path_text p -> opt_ok query_text q -> opt_ok fragment_text f ->
  tracker_ask (url_text s h p q f) r =
  if bytes_eqb (map lower_byte s) (bs "http") || bytes_eqb (map lower_byte s) (bs "https")
  then AGet (map lower_byte s) h ((match p with [] => bs "/" | _ => p end) ++ "?"%byte :: request_encode r) else AErr.
Proof.
  intros Hs Hh Hp Hq Hf. destruct (parse_text s h p q f Hs Hh Hp Hq Hf) as (pa & rp & SP & Ne & P). unfold tracker_ask. rewrite P.
  destruct (path_good p Hp) as (_ & V & _). destruct (encode_query r) as (QT & QN). destruct (lower_scheme s Hs) as (Hs' & LL). destruct (host_good h Hh) as (Nh & _).
  assert (ST : url_string (set_query (request_encode r) {| u_scheme := map lower_byte s; u_host := h; u_path := pa; u_rawpath := rp; u_force := match q with Some [] => true | _ => false end; u_query := match q with Some t => t | None => [] end |})
    = url_text (map lower_byte s) h p (Some (request_encode r)) None).
  { unfold url_string, set_query, url_text. cbn [u_scheme u_host u_path u_rawpath u_force u_query]. rewrite (escaped_path_eq _ p V) by (cbn; exact SP).
    replace (bytes_eqb (request_encode r) []) with false by (destruct (request_encode r); [contradiction|reflexivity]). cbn [negb]. rewrite orb_true_r. cbn [opt]. rewrite app_nil_r.
    destruct h as [|c h]; [contradiction|]. reflexivity. }
  rewrite ST. unfold http_get. destruct (parse_text (map lower_byte s) h p (Some (request_encode r)) None Hs' Hh Hp) as (pa' & rp' & SP' & _ & P').
  { intros t [= <-]. exact QT. } { intros t [=]. }
  rewrite P'. cbn [u_scheme u_host]. rewrite LL. replace (bytes_eqb h []) with false by (destruct h; [contradiction|reflexivity]). cbn [negb]. rewrite andb_true_r.
  destruct (_ || _); [|reflexivity]. f_equal. unfold request_target. cbn [u_force u_query]. rewrite (escaped_path_eq _ p V) by (cbn; exact SP').
  replace (bytes_eqb (request_encode r) []) with false by (destruct (request_encode r); [contradiction|reflexivity]). cbn [negb]. rewrite orb_true_r. destruct p; reflexivity.
Qed.
Theorem asked_at_url s h p q f r : s = bs "http" \/ s = bs "https" -> host_text h -> path_text p -> opt_ok query_text q -> opt_ok fragment_text f -> request_fits r ->
  exists query, tracker_ask (url_text s h p q f) r = AGet s h ((match p with [] => bs "/" | _ => p end) ++ "?"%byte :: query) /\ request_decode new_request query = Some r.
Proof.
  intros Hs Hh Hp Hq Hf Hr. exists (request_encode r). split; [|apply request_round, Hr].
  assert (St : scheme_text s).
  { destruct Hs as [-> | ->].
    - exists "h"%byte, (bs "ttp"). split; [reflexivity|]. split; [right; vm_compute; split; discriminate|]. repeat (apply Forall_cons || apply Forall_nil); left; right; vm_compute; split; discriminate.
    - exists "h"%byte, (bs "ttps"). split; [reflexivity|]. split; [right; vm_compute; split; discriminate|]. repeat (apply Forall_cons || apply Forall_nil); left; right; vm_compute; split; discriminate. }
  rewrite (ask_text s h p q f r St Hh Hp Hq Hf). destruct Hs as [-> | ->]; reflexivity.
Qed.
Theorem own_query_lost s h p q q' f f' r : scheme_text s -> host_text h -> path_text p -> opt_ok query_text q -> opt_ok query_text q' -> opt_ok fragment_text f -> opt_ok fragment_text f' ->
  tracker_ask (url_text s h p q f) r = tracker_ask (url_text s h p q' f') r.
Proof. intros. rewrite !ask_text by assumption. reflexivity. Qed.
Theorem other_schemes s h p q f r : scheme_text s -> Forall (fun c => ~ 65 <= b2z c <= 90) s -> s <> bs "http" -> s <> bs "https" ->
  host_text h -> path_text p -> opt_ok query_text q -> opt_ok fragment_text f -> tracker_ask (url_text s h p q f) r = AErr.
Proof.
  intros Hs Lo N1 N2 Hh Hp Hq Hf. rewrite ask_text by assumption. assert (E : map lower_byte s = s).
  { clear - Lo. induction Lo as [|c s H F IH]; [reflexivity|]. cbn [map]. rewrite IH. f_equal. unfold lower_byte, in_range. destruct (65 <=? b2z c) eqn:A, (b2z c <=? 90) eqn:B; try reflexivity.
    apply Z.leb_le in A, B. exfalso. apply H. lia. }
  rewrite E. destruct (bytes_eqb s (bs "http")) eqn:E1; [apply bytes_eqb_eq in E1; contradiction|].
  destruct (bytes_eqb s (bs "https")) eqn:E2; [apply bytes_eqb_eq in E2; contradiction|]. reflexivity.
Qed.
