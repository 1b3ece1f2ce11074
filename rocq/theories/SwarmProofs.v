(** The announce of one drip client, through the tracker, back to the client. *)
From Verif Require Import GoBase GoBaseProofs Strconv BencTypes BencFields BencEncode BencDecode BencSpec BencRoundSpec StrconvProofs NetIP Metainfo Storage Tracker TrackerSpec NetIPProofs TrackerProofs Multitracker Announce Pex PexSpec PexProofs SwarmSpec.
From Coq Require Import Permutation.

Lemma visit_announces h c ev t clk e : visit h c ev t clk e ->
  exists q, e = EvRequest q (Some (cl_host c)) t clk /\
    announces q (Some (cl_host c)) h (addr_text (cl_host c) (cl_port c)) {| p_id := cl_id c; p_ip := cl_host c; p_port := cl_port c |} ev true.
Proof.
  intros ((D & P & I) & H & i & m & up & down & Hi & F & ->). eexists. split; [reflexivity|]. destruct D as (a & b & c' & d & D). apply dotted_show in D.
  assert (S : show_ip (ipv4 [a; b; c'; d]) = cl_host c) by (rewrite show_ipv4; auto). assert (Pp : parse_ip (cl_host c) = Some (ipv4 [a; b; c'; d])) by (rewrite D; apply parse_ip_show). revert S Pp. generalize (ipv4 [a; b; c'; d]). intros ip S Pp.
  exists (announce_request i m (cl_id c) (cl_port c) up down ev), ip. split; [apply request_decode_means, request_round; split; [cbn; congruence|]; split; [exact I|]|].
  { constructor; [unfold int_fits; cbn; lia|exact F]. }
  cbn. rewrite S. repeat split; auto. lia.
Qed.

(** An address is determined by its text. *)
Lemma addr_inj h1 p1 h2 p2 : ~ In ":"%byte h1 -> ~ In ":"%byte h2 -> 1 <= p1 <= 65535 -> 1 <= p2 <= 65535 -> addr_text h1 p1 = addr_text h2 p2 -> h1 = h2 /\ p1 = p2.
Proof.
  intros N1 N2 B1 B2 E. unfold addr_text in E.
  assert (G : h1 = h2 /\ format_Z p1 = format_Z p2).
  { clear B1 B2. revert h2 N2 E. induction h1 as [|x h1 IH]; intros [|y h2] N2 E; cbn in E; [injection E; auto|injection E as E _; exfalso; apply N2; now left|injection E as E _; exfalso; apply N1; now left|].
    injection E as -> E. destruct (IH (fun H => N1 (or_intror H)) h2 (fun H => N2 (or_intror H)) E) as [-> F]. auto. }
  destruct G as [-> G]. split; [reflexivity|]. assert (forall z, 1 <= z <= 65535 -> is_int64 z = true) as I by (intros z Hz; unfold is_int64; apply andb_true_iff; split; apply Z.leb_le; unfold min_int64, max_int64; lia).
  pose proof (parse_int_format p1 (I _ B1)) as F1. pose proof (parse_int_format p2 (I _ B2)) as F2. rewrite G in F1. congruence.
Qed.
Lemma dotted_plain a b c d t : dotted a b c d t -> ~ In ":"%byte t.
Proof.
  rewrite dotted_show, show_v4_four. intros -> H. repeat (apply in_app_or in H as [H|[H|H]]; [apply octet_clean in H; discriminate|discriminate|]). apply octet_clean in H. discriminate.
Qed.
Lemma swarm_announce e h a p ev t : swarm_event e -> announce_event e h a p ev t ->
  exists c clk, visit h c ev t clk e /\ a = addr_text (cl_host c) (cl_port c) /\ p = {| p_id := cl_id c; p_ip := cl_host c; p_port := cl_port c |}.
Proof.
  destruct e as [q r n k|]; [|intros _ []]. intros (h' & c & ev' & t' & clk & V) (-> & cc & A). destruct (visit_announces _ _ _ _ _ _ V) as (q' & E & A'). injection E as -> -> -> ->.
  destruct (announces_fun _ _ _ _ _ _ _ _ _ _ _ _ A A') as (-> & -> & -> & -> & _). eauto.
Qed.
Lemma visit_event h c ev t clk e : visit h c ev t clk e -> announce_event e h (addr_text (cl_host c) (cl_port c)) {| p_id := cl_id c; p_ip := cl_host c; p_port := cl_port c |} ev t.
Proof. intros V. destruct (visit_announces _ _ _ _ _ _ V) as (q & -> & A). split; [reflexivity|eauto]. Qed.
Lemma visit_ok h c ev t clk e : visit h c ev t clk e -> ~ In ":"%byte (cl_host c) /\ 1 <= cl_port c <= 65535.
Proof. intros (((a & b & d & f & D) & P & _) & _). split; [eapply dotted_plain; eauto|exact P]. Qed.
Lemma last_visit_announce hist h host port t ev : Forall swarm_event hist -> ~ In ":"%byte host -> 1 <= port <= 65535 ->
  last_visit hist h host port t ev <-> last_announce hist h (addr_text host port) t ev.
Proof.
  intros F Hh Hp. split.
  - intros (pre & e & post & c & clk & -> & V & <- & <- & L). exists pre, e, post. eexists. split; [reflexivity|]. split; [eapply visit_event; eauto|].
    intros e' I' p' ev' t' A. rewrite Forall_forall in F. assert (S' : swarm_event e') by (apply F, in_app_iff; right; now right).
    destruct (swarm_announce _ _ _ _ _ _ S' A) as (c' & clk' & V' & E & _). destruct (visit_ok _ _ _ _ _ _ V') as [X Y]. apply addr_inj in E as [E1 E2]; auto. apply (L _ _ _ _ _ I' V'). congruence.
  - intros (pre & e & post & p & -> & A & L). rewrite Forall_forall in F. assert (S' : swarm_event e) by (apply F, in_app_iff; right; now left).
    destruct (swarm_announce _ _ _ _ _ _ S' A) as (c & clk & V & E & _). destruct (visit_ok _ _ _ _ _ _ V) as [X Y]. apply addr_inj in E as [E1 E2]; auto. exists pre, e, post, c, clk.
    split; [reflexivity|]. split; [exact V|]. split; [auto|]. split; [auto|]. intros e' c' ev' t' clk' I' V' N. injection N as N1 N2.
    apply (L _ I' {| p_id := cl_id c'; p_ip := cl_host c'; p_port := cl_port c' |} ev' t'). rewrite <- N1, <- N2. eapply visit_event; eauto.
Qed.
Lemma pigeons {A B} (R : A -> B -> Prop) (xs : list B) : forall es, NoDup xs -> (forall e x y, R e x -> R e y -> x = y) -> (forall x, In x xs -> exists e, In e es /\ R e x) -> (List.length xs <= List.length es)%nat.
Proof.
  induction xs as [|x xs IH]; intros es N F H; cbn; [lia|]. inversion N as [|? ? Nx Nd]; subst. destruct (H x (or_introl eq_refl)) as (e & I & Re). apply in_split in I as (e1 & e2 & ->).
  specialize (IH (e1 ++ e2) Nd F). rewrite app_length in *. cbn. rewrite app_length in IH || idtac. assert (forall y, In y xs -> exists e0, In e0 (e1 ++ e2) /\ R e0 y).
  { intros y Iy. destruct (H y (or_intror Iy)) as (e' & I' & R'). exists e'. split; [|exact R']. apply in_app_iff in I' as [I'|[<-|I']]; [apply in_app_iff; auto| |apply in_app_iff; auto]. exfalso. apply Nx. now rewrite (F _ _ _ Re R'). }
  specialize (IH H0). lia.
Qed.

Section Swarm.
Variable err_text : bytes -> bytes.
Variable order : px_map -> px_map.
Hypothesis order_perm : forall m, Permutation m (order m).

Theorem swarm_spec hashes t0 hist me T h c ev now clk :
  timed t0 (hist ++ [me]) T -> In h hashes -> visit h c ev now clk me -> Forall swarm_event hist -> zlen hist < 2 ^ 45 ->
  exists q l v, me = EvRequest q (Some (cl_host c)) now clk /\
    let rep := snd (serve err_text order q (Some (cl_host c)) now clk (px_run err_text order (new_http hashes) hist)) in
    status rep = 200 /\ tracker_get (Some (body rep)) = Ok v /\ v = response_val (answer {| ps_compact := true; ps_list := l |}) /\
    start_on_body (Some (body rep)) = Ok 30000000000 /\ announce_on_body (Some (body rep)) = Ok tt /\ NoDup l /\
    forall p, In p l <-> p_id p = [] /\ (p_ip p, p_port p) <> (cl_host c, cl_port c) /\
      exists t ev', last_visit (hist ++ [me]) h (p_ip p) (p_port p) t ev' /\ ev' <> stopped /\ clk (addr_text (p_ip p) (p_port p)) - t <= minute.
Proof.
  intros Tm Hh V F L. destruct (visit_announces _ _ _ _ _ _ V) as (q & -> & A).
  assert (FA : Forall swarm_event (hist ++ [EvRequest q (Some (cl_host c)) now clk])) by (apply Forall_app; split; [exact F|constructor; [cbn; eauto 6|constructor]]).
  destruct (visit_ok _ _ _ _ _ _ V) as [Nc Pc].
  set (all := hist ++ [EvRequest q (Some (cl_host c)) now clk]) in *.
  assert (Sw : forall e h a p ev t, In e all -> announce_event e h a p ev t -> exists c clk, visit h c ev t clk e /\ a = addr_text (cl_host c) (cl_port c) /\ p = {| p_id := cl_id c; p_ip := cl_host c; p_port := cl_port c |}).
  { intros e h' a' p' ev' t' I Ae. rewrite Forall_forall in FA. eapply swarm_announce; eauto. }
  destruct (listing_spec err_text order order_perm hashes t0 hist q (Some (cl_host c)) now clk T h _ _ _ _ Tm Hh A) as (l & Eq & (addrs & Ha & Nd) & Hl & Hi).
  { intros e I h' a' p' ev' t' Ae. destruct (Sw _ _ _ _ _ _ I Ae) as (c' & clk' & V' & _ & ->). destruct V' as (((x & y & z & u & D) & _) & _). apply dotted_show in D. cbn. rewrite D.
    exists (ipv4 [x; y; z; u]). split; [apply parse_ip_show|apply show_ipv4]. }
  fold all in Hl, Hi. exists q, (map without_id l), (response_val (answer {| ps_compact := true; ps_list := map without_id l |})). split; [reflexivity|]. rewrite Eq.
  assert (V4 : Forall ipv4_peer l).
  { apply Forall_forall. intros p I. destruct (Hl _ I) as (e & a' & ev' & t' & Ie & Ae). destruct (Sw _ _ _ _ _ _ Ie Ae) as (c' & clk' & (( D & P & _) & _) & _ & ->). split; [exact D|cbn; lia]. }
  assert (AD : Forall2 (fun p a => has_addr p a /\ a = addr_text (p_ip p) (p_port p)) l addrs).
  { clear - Ha V4. induction Ha as [|p a l addrs Hp Ha IH]; constructor; inversion V4; subst; [|auto]. split; [exact Hp|]. destruct Hp as (ip & P & ->). destruct H1 as [(x & y & z & u & D) _].
    apply dotted_show in D. rewrite D in P. rewrite parse_ip_show in P. injection P as <-. rewrite show_ipv4, <- D. reflexivity. }
  assert (LL : zlen l <= zlen hist + 1).
  { assert (List.length addrs <= List.length all)%nat as X.
    { apply (pigeons (fun e a => exists p ev t, announce_event e h a p ev t)); [exact Nd| |].
      - intros e x y (p1 & e1 & t1 & A1) (p2 & e2 & t2 & A2). now destruct (ae_fun _ _ _ _ _ _ _ _ _ _ _ A1 A2) as (_ & -> & _).
      - intros x Ix. assert (exists p, In p l /\ has_addr p x) as Ex. { clear - AD Ix. induction AD as [|p a l addrs [H _] _ IH]; [destruct Ix|]. destruct Ix as [<-|Ix]; [exists p; split; [now left|exact H]|]. destruct (IH Ix) as (p' & I' & H'). exists p'. split; [now right|exact H']. }
        apply Hi in Ex as (_ & t & ev' & (pre & e & post & p & E & Ae & _) & _). exists e. split; [rewrite E; apply in_app_iff; right; now left|eauto]. }
    assert (List.length l = List.length addrs) by (clear - Ha; induction Ha; cbn; congruence). unfold all in X. rewrite app_length in X. cbn in X. unfold zlen. lia. }
  assert (Sd : sendable {| ps_compact := true; ps_list := l |}).
  { split; [cbn [ps_list]; change (2 ^ 48) with (8 * 2 ^ 45); lia|]. cbn. eapply Forall_impl; [|exact V4]. intros p [(x & y & z & u & D) _]. apply dotted_show in D. rewrite D. do 2 eexists. split; [apply parse_ip_show|apply to4_ipv4]. }
  destruct (response_round _ (answer_fits _ Sd)) as (b & ps' & M & U & W). rewrite M. cbn [answer rs_peers] in W. destruct ps' as [[cp l']|]; [|destruct W]. destruct W as [W1 W2]. cbn in W1, W2. subst cp.
  apply (view_ipv4 _ _ V4) in W2. subst l'. cbn [body status].
  assert (TG : tracker_get (Some b) = Ok (response_val (answer {| ps_compact := true; ps_list := map without_id l |}))) by (unfold tracker_get; rewrite U; reflexivity).
  split; [reflexivity|]. split; [exact TG|]. split; [reflexivity|]. split; [unfold start_on_body; rewrite TG; vm_compute; reflexivity|]. split; [unfold announce_on_body; rewrite TG; reflexivity|].
  assert (In' : forall p, In p (map without_id l) <-> p_id p = [] /\ exists p', In p' l /\ p_ip p' = p_ip p /\ p_port p' = p_port p).
  { intros p. rewrite in_map_iff. split; [intros (p' & <- & I); cbn; eauto|]. intros (E & p' & I & E1 & E2). exists p'. split; [|exact I]. unfold without_id. rewrite E1, E2, <- E. now destruct p. }
  split.
  - apply (NoDup_map_inv (fun p => addr_text (p_ip p) (p_port p))). rewrite map_map. cbn [without_id p_ip p_port]. clear - AD Nd. replace (map _ l) with addrs; [exact Nd|]. induction AD as [|p a l addrs [_ ->] _ IH]; [reflexivity|]. cbn. inversion Nd; subst. f_equal. auto.
  - intros p. rewrite In'. split.
    + intros (E & p' & I & E1 & E2). split; [exact E|]. assert (V4' : ipv4_peer p') by (rewrite Forall_forall in V4; auto). assert (X : exists p', In p' l /\ has_addr p' (addr_text (p_ip p) (p_port p))).
      { exists p'. split; [exact I|]. destruct V4' as [(x & y & z & u & D) _]. apply dotted_show in D. exists (ipv4 [x; y; z; u]). rewrite D, parse_ip_show. split; [reflexivity|]. rewrite show_ipv4, <- D, E1, E2. reflexivity. }
      apply Hi in X as (X & t & ev' & LA & S & C). split; [intros N; injection N as N1 N2; apply X; now rewrite N1, N2|]. exists t, ev'. split; [|auto].
      destruct (Hl _ I) as (e & a' & ev2 & t2 & Ie & Ae). destruct (Sw _ _ _ _ _ _ Ie Ae) as (c' & clk' & V' & _ & ->). cbn in E1, E2. rewrite <- E1, <- E2. destruct (visit_ok _ _ _ _ _ _ V') as [Y1 Y2]. apply last_visit_announce; auto. now rewrite E1, E2.
    + intros (E & N & t & ev' & LV & S & C). split; [exact E|]. pose proof LV as (pre & e & post & c' & clk' & _ & V' & E1 & E2 & _). destruct (visit_ok _ _ _ _ _ _ V') as [Y1 Y2]. rewrite E1 in Y1. rewrite E2 in Y2.
      apply last_visit_announce in LV; auto. assert (X : exists p', In p' l /\ has_addr p' (addr_text (p_ip p) (p_port p))).
      { apply Hi. split; [|eauto]. intros K. apply N. apply addr_inj in K as [-> ->]; auto. }
      destruct X as (p' & I & Ha'). exists p'. split; [exact I|]. assert (Aq : addr_text (p_ip p) (p_port p) = addr_text (p_ip p') (p_port p')).
      { destruct Ha' as (ip & P & ->). rewrite Forall_forall in V4. destruct (V4 _ I) as [(x & y & z & u & D) _]. apply dotted_show in D. rewrite D in P. rewrite parse_ip_show in P. injection P as <-. now rewrite show_ipv4, <- D. }
      destruct (Hl _ I) as (e' & a' & ev2 & t2 & Ie & Ae). destruct (Sw _ _ _ _ _ _ Ie Ae) as (c2 & clk2 & V2 & _ & ->). destruct (visit_ok _ _ _ _ _ _ V2) as [Z1 Z2]. cbn [p_ip p_port] in Aq |- *. apply addr_inj in Aq as [-> ->]; auto.
Qed.
End Swarm.
