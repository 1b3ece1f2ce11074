(** Every registered peer has shaken hands. *)
From Coq Require Import Permutation.
From Verif Require Import GoBase GoBaseProofs Bitfield BitfieldSpec BitfieldProofs GoMap PeerWire NetIP Tracker P2PPeer P2PServer P2PServerSpec P2PServerProofs P2PSortProofs P2PAnnounceProofs P2PRegistryProofs.

Section Origin.
Variable own_hash own_id blank : bytes.
Notation exec := (exec own_hash own_id blank).
Notation runs := (runs own_hash own_id blank).

Lemma runs_acts_ind (P : list action -> sys -> list event -> Prop) s0 l s ev : P [] s0 [] ->
  (forall l s ev a s' e, P l s ev -> exec s a = Some (s', e) -> P (l ++ [a]) s' (ev ++ e)) -> runs s0 l = Some (s, ev) -> P l s ev.
Proof.
  intros H0 H. assert (forall l l1 s1 ev1, P l1 s1 ev1 -> forall s ev, runs s1 l = Some (s, ev) -> P (l1 ++ l) s (ev1 ++ ev)) as G.
  { clear l s ev. induction l as [|a l IH]; cbn [P2PServer.runs]; intros l1 s1 ev1 H1 s ev; [intros [= <- <-]; now rewrite !app_nil_r|].
    destruct (exec s1 a) as [[s2 e2]|] eqn:E; [|discriminate].
    destruct (runs s2 l) as [[s3 e3]|] eqn:R; [|discriminate]. intros [= <- <-].
    rewrite app_assoc. change (l1 ++ a :: l) with (l1 ++ [a] ++ l). rewrite app_assoc. eapply IH; [|exact R]. now apply (H l1 s1 ev1 a). }
  intros R. exact (G l [] s0 [] H0 s ev R).
Qed.
Lemma repeat_skip (x : byte) k : forall m, skipn m (repeat x k) = repeat x (k - m).
Proof. induction k as [|k IH]; intros [|m]; cbn; auto. Qed.
Lemma repeat_first (x : byte) k : forall j, (j <= k)%nat -> firstn j (repeat x k) = repeat x j.
Proof. induction k as [|k IH]; intros [|j] H; cbn; try lia; auto. f_equal. apply IH. lia. Qed.
Lemma given_copied x : copied_id x = given_id x.
Proof.
  unfold copied_id, copy20, given_id, zero_id, no_id. rewrite firstn_app, repeat_skip, repeat_first; [reflexivity|]. apply Nat.le_sub_l.
Qed.
Lemma came_more l a id ip port : came l id ip port -> came (l ++ [a]) id ip port.
Proof. intros [[H ->]|[tp [H R]]]; [left|right; exists tp]; (split; [apply in_or_app; now left|easy]). Qed.

Definition from_add (l : list action) (s : sys) : Prop := forall tp,
  In tp (s_queue s) \/ s_taken s = Some tp \/ (exists b, In (TDial tp b) (s_threads s)) -> In (AAdd tp) l.
Lemma from_add_step l s a s' e : from_add l s -> exec s a = Some (s', e) -> from_add (l ++ [a]) s'.
Proof.
  intros L H tp X. apply in_or_app. 
  assert ((In tp (s_queue s) \/ s_taken s = Some tp \/ (exists b, In (TDial tp b) (s_threads s))) \/ a = AAdd tp) as [Y| ->]; [|left; now apply L|right; now left].
  open_exec H; revert X; drop_facts; fields; intros [X|[X|[bb X]]]; try (left; now auto); try discriminate X.
  all: inthreads X; try discriminate X; try (left; right; right; now eauto).
  all: try (injection X as -> ->; left; right; right; exists false; eapply nth_error_In; eassumption).
  - left. left. now right.
  - injection X as ->. left. left. now left.
  - injection X as -> _. left. right. now left.
  - left. now left.
  - right. now rewrite X.
Qed.

Definition shaken (l : list action) (q : remote) : Prop := exists t r id0 r', In (AGo t (CHand true r)) l /\ came l id0 (q_ip q) (q_port q) /\
  peer_handshake own_hash own_id id0 true r = (q_id q, Ok r').
Lemma shaken_more l a q : shaken l q -> shaken (l ++ [a]) q.
Proof. intros (t & r & id0 & r' & A & B & C). exists t, r, id0, r'. split; [apply in_or_app; now left|]. split; [now apply came_more|easy]. Qed.
Definition met (l : list action) (q : remote) (h : hpc) : Prop :=
  match h with HConnect | HHandshake => came l (q_id q) (q_ip q) (q_port q) | HRelease => True | _ => shaken l q end.
Lemma met_more l a q h : met l q h -> met (l ++ [a]) q h.
Proof. destruct h; cbn; auto using came_more, shaken_more. Qed.
Definition met_ok (l : list action) (s : sys) : Prop := forall p h, In (THandler p h) (s_threads s) -> exists q, nth_error (s_peers s) p = Some q /\ met l q h.
Lemma met_same l q q' h : q_id q' = q_id q -> q_ip q' = q_ip q -> q_port q' = q_port q -> met l q h -> met l q' h.
Proof. intros A B C. destruct h; cbn; unfold shaken; rewrite ?A, ?B, ?C; auto. Qed.
Lemma met_have l q r : met l q (next_have r) <-> shaken l q. Proof. now destruct r. Qed.
Lemma met_after l q r : met l q (after_queue r) <-> shaken l q. Proof. now destruct r. Qed.
Lemma met_handle l r m q h : handle r m = (q, h) -> shaken l r -> met l q h.
Proof. unfold handle. intros H. brk H; injection H as <- <-; rewrite ?met_have; auto. Qed.
(** Only its own handler renames a peer. *)
Lemma same_id s a s' e p h q : hand_ok s -> exec s a = Some (s', e) -> nth_error (s_peers s) p = Some q ->
  In (THandler p h) (s_threads s) -> In (THandler p h) (s_threads s') -> 
  exists q', nth_error (s_peers s') p = Some q' /\ q_ip q' = q_ip q /\ q_port q' = q_port q /\ (q_id q' = q_id q \/ exists t c, a = AGo t c /\ nth_error (s_threads s) t = Some (THandler p h) /\ h = HHandshake).
Proof.
  intros HH H Q X X'. destruct (peers_step own_hash own_id blank _ _ _ _ _ _ H Q) as [q' [A [[B [C _]] D]]]. exists q'. split; [easy|]. split; [easy|]. split; [easy|].
  assert (q_id q' = q_id q \/ exists t c, a = AGo t c /\ nth_error (s_threads s) t = Some (THandler p HHandshake)) as [E|[t [c [-> T]]]]; [|auto|].
  { clear D X X'. revert A. open_exec H; drops; fields; intros A.
    all: try (left; congruence).
    all: try (apply drop_all_peers in A as [q0 [A [->| ->]]]; left; cbn; congruence).
    all: try (apply nth_set in A as [[-> ->]|[_ A]]; [|left; congruence]; try (left; cbn; congruence)).
    all: try (apply nth_app in A as [[-> _]|[_ A]]; [exfalso; assert (List.length (s_peers s) < List.length (s_peers s))%nat; [apply nth_error_Some; congruence|lia]|left; congruence]).
    all: try (right; eauto; fail).
    match goal with X : handle _ _ = _ |- _ => unfold handle in X; brk X; injection X as <- <- end; left; cbn; congruence. }
  right. exists t, c. split; [easy|]. apply In_nth_error in X as [k K].
  destruct (Nat.eq_dec k t) as [->|N]; [rewrite T in K; injection K as <-; auto|exfalso].
  pose proof (tsum_ge2 (hand p) _ _ _ _ _ (hand_nonneg p) T K) as G. specialize (HH p). pose proof (one_range (p <? List.length (s_peers s))%nat).
  cbn [hand] in G. rewrite Nat.eqb_refl in G. cbn [one] in G. assert (t <> k) as N' by congruence. specialize (G N'). lia.
Qed.
Lemma met_step l s a s' e : hand_ok s -> from_add l s -> met_ok l s -> exec s a = Some (s', e) -> met_ok (l ++ [a]) s'.
Proof.
  intros HH FA L H pp hh X.
  pose proof (fun q h => same_id s a s' e pp h q HH H) as SI.
  assert (In (THandler pp hh) (s_threads s) -> exists q, nth_error (s_peers s') pp = Some q /\ met (l ++ [a]) q hh) as OLD.
  { intros Y. destruct (L _ _ Y) as [q [Q M]]. destruct (SI q hh Q Y X) as [q' [A [B [C [D|[t [c [-> [T ->]]]]]]]]].
    - exists q'. split; [easy|]. apply (met_same _ q); auto. now apply met_more.
    - exfalso. unfold P2PServer.exec, step_thread in H. rewrite T in H. unfold step_handler in H. rewrite Q in H.
      destruct (s_crashed s); [discriminate|]. destruct c; try discriminate H.
      assert (exists h', h' <> HHandshake /\ s_threads s' = list_set t (THandler pp h') (s_threads s)) as [h' [N TH]].
      { brk H; injection H as <- <-; eexists; (split; [|reflexivity]); discriminate. }
      rewrite TH in X. apply In_nth_error in X as [k K]. apply nth_set in K as [[-> K]|[N1 K]]; [congruence|].
      pose proof (tsum_ge2 (hand pp) _ _ _ _ _ (hand_nonneg pp) T K) as G. specialize (HH pp). pose proof (one_range (pp <? List.length (s_peers s))%nat).
      cbn [hand] in G. rewrite Nat.eqb_refl in G. cbn [one] in G. assert (t <> k) as N' by congruence. specialize (G N'). lia. }
  clear SI. open_exec H; revert OLD X; drop_facts; fields; intros OLD X; inthreads X; try discriminate X; try (now apply OLD).
  all: clear OLD; injection X; intros; subst.
  all: try match goal with T : nth_error (s_threads _) _ = Some (THandler ?p ?h) |- _ => destruct (L p h (nth_error_In _ _ T)) as [q0 [Q0 M0]] end.
  all: try match goal with A : nth_error (s_peers ?s) ?p = Some ?x, B : nth_error (s_peers ?s) ?p = Some ?y |- _ => assert (y = x) by congruence; subst; clear B end.
  all: try (eexists; split; [first [eassumption|rewrite list_set_nth_eq by (apply nth_error_Some; congruence); reflexivity]|];
    rewrite ?met_have, ?met_after; first [exact I|now apply came_more|now apply shaken_more]).
  - rewrite nth_error_app2, Nat.sub_diag by lia. eexists. split; [reflexivity|]. cbn. right. exists tp. split; [|split; [easy|split; [easy|apply given_copied]]].
    apply in_or_app. left. apply FA. right. right. exists true. eapply nth_error_In. eassumption.
  - eexists. split; [rewrite list_set_nth_eq by (apply nth_error_Some; congruence); reflexivity|].
    match goal with X : peer_handshake _ _ _ ?w ?c = _ |- _ => assert (w = true) as -> by (unfold peer_handshake in X; destruct w; [easy|discriminate X]); exists t, c, (q_id r), a0 end.
    cbn [q_id q_ip q_port set_id]. split; [apply in_or_app; right; now left|]. split; [now apply came_more|assumption].
  - eexists. split; [rewrite list_set_nth_eq by (apply nth_error_Some; congruence); reflexivity|]. eapply met_handle; [eassumption|]. now apply shaken_more.
  - rewrite nth_error_app2, Nat.sub_diag by lia. eexists. split; [reflexivity|]. cbn. left. split; [apply in_or_app; right; now left|easy].
Qed.
Definition connected_ok (l : list action) (ev : list event) : Prop := forall p id ip, In (EvConnected p id ip) ev ->
  exists q, q_id q = id /\ q_ip q = ip /\ shaken l q.
Lemma connected_step l s ev a s' e : met_ok l s -> connected_ok l ev -> exec s a = Some (s', e) -> connected_ok (l ++ [a]) (ev ++ e).
Proof.
  intros M L H p id ip X. apply in_app_or in X as [X|X].
  - destruct (L _ _ _ X) as [q [A [B C]]]. exists q. auto using shaken_more.
  - open_exec H; cbn [In] in X; try tauto; repeat (destruct X as [X|X]; try discriminate X; try tauto).
    injection X as <- <- <-. match goal with T : nth_error (s_threads s) _ = Some _ |- _ => destruct (M _ _ (nth_error_In _ _ T)) as [q [Q S]] end.
    assert (q = r) as -> by congruence. exists r. auto using shaken_more.
Qed.
Lemma run_connected have l s ev : runs (started have) l = Some (s, ev) -> connected_ok l ev.
Proof.
  intros R. enough (hand_ok s /\ from_add l s /\ met_ok l s /\ connected_ok l ev) by easy.
  revert R. apply (runs_acts_ind (fun l s ev => hand_ok s /\ from_add l s /\ met_ok l s /\ connected_ok l ev)).
  - split; [|split; [|split]].
    + intros p. cbn. lia.
    + intros tp [[]|[X|[b []]]]. discriminate X.
    + intros p h [].
    + intros p id ip [].
  - intros l1 s1 ev1 a s2 e [A [B [C D]]] H. split; [|split; [|split]].
    + now apply (hand_step own_hash own_id blank _ _ _ _ A H).
    + now apply (from_add_step _ _ _ _ _ B H).
    + now apply (met_step _ _ _ _ _ A B C H).
    + now apply (connected_step _ _ _ _ _ _ C D H).
Qed.
End Origin.
