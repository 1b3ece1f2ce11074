(** What a step of the server changes, as far as the composition with the storage needs it. *)
From Coq Require Import Permutation.
From Verif Require Import GoBase GoBaseProofs Bitfield BitfieldSpec BitfieldProofs GoMap PeerWire NetIP Tracker P2PPeer P2PServer P2PServerSpec P2PServerProofs P2PSortProofs P2PAnnounceProofs P2PRegistryProofs P2PLockProofs.

Section Frame.
Variable own_hash own_id blank : bytes.
Notation exec := (exec own_hash own_id blank).
Notation runs := (runs own_hash own_id blank).
Set Default Proof Using "Type".

(** Goroutines move only in their own steps. *)
Lemma others_stay s a s' e u th : exec s a = Some (s', e) -> ~ turn_of u a -> nth_error (s_threads s) u = Some th -> nth_error (s_threads s') u = Some th.
Proof.
  intros H N T. open_exec H; drop_facts; fields; try exact T.
  all: repeat (rewrite list_set_nth_neq by (intros ->; apply N; eexists; reflexivity)).
  all: try (rewrite nth_error_app1; [|first [rewrite list_set_length|idtac]; apply nth_error_Some; congruence]).
  all: repeat (rewrite list_set_nth_neq by (intros ->; apply N; eexists; reflexivity)); exact T.
Qed.
Lemma have_frame s a s' e : exec s a = Some (s', e) -> s_have s' = s_have s \/
  exists t ok p i, a = AGo t (CStored ok) /\ nth_error (s_threads s) t = Some (THandler p (HPiece i)) /\ bf_add (s_have s) i = Some (s_have s').
Proof.
  intros H. open_exec H; drop_facts; fields; try (left; reflexivity).
  all: right; do 4 eexists; split; [reflexivity|split; [eassumption|eassumption]].
Qed.
Lemma have_same s a s' e : exec s a = Some (s', e) -> (forall t ok, a <> AGo t (CStored ok)) -> s_have s' = s_have s.
Proof. intros H N. apply have_frame in H as [H|(t & k & _ & _ & -> & _)]; [exact H|]. now destruct (N t k). Qed.
Lemma have_stored s t ok s' e p i : exec s (AGo t (CStored ok)) = Some (s', e) -> nth_error (s_threads s) t = Some (THandler p (HPiece i)) -> bf_add (s_have s) i = Some (s_have s').
Proof.
  intros H T. unfold P2PServer.exec in H. destruct (s_crashed s); [discriminate|]. unfold step_thread in H. rewrite T in H. unfold step_handler in H.
  destruct (nth_error (s_peers s) p); [|discriminate]. destruct (bf_add (s_have s) i); [|discriminate]. now injection H as <- <-.
Qed.
(** Where a handler comes to the storage. *)
Definition calls (h : hpc) (m : message) : Prop :=
  match h with HRequest => m_type m = REQUEST | HPiece i => m_type m = PIECE /\ m_index m = i | _ => False end.
Definition at_storage (th : thread) : bool :=
  match th with THandler _ (HRequest | HPiece _) | TPiece _ _ PRun => true | _ => false end.
Lemma handle_calls q m q' h p : handle q m = (q', h) -> at_storage (THandler p h) = true -> calls h m.
Proof. unfold handle. intros H. brk H; injection H as <- <-; try discriminate; try (destruct (bf_items _); discriminate); intros _; cbn; repeat split; lia. Qed.
Ltac threads X := repeat match type of X with
  | nth_error (list_set _ _ _) _ = Some _ => apply nth_set in X as [[-> X]|[? X]]
  | nth_error (_ ++ [_]) _ = Some _ => apply nth_app in X as [[-> X]|[_ X]]
  end.
Lemma at_storage_frame s a s' e u th : exec s a = Some (s', e) -> s_crashed s' = false -> nth_error (s_threads s') u = Some th -> at_storage th = true ->
  (nth_error (s_threads s) u = Some th /\ ~ turn_of u a) \/
  (exists p m h, th = THandler p h /\ a = AGo u (CMsg m) /\ nth_error (s_threads s) u = Some (THandler p HReceive) /\ e = [EvReceived p m] /\ calls h m) \/
  (exists p i, th = TPiece p i PRun /\ u = List.length (s_threads s) /\ In (EvRequest p i) e).
Proof.
  intros H C T A. open_exec H; revert T; drop_facts; fields; fields_in C; try discriminate C; intros T.
  all: try (left; split; [exact T|]; intros [cc CC]; discriminate CC).
  all: threads T; try (left; split; [exact T|]; intros [cc CC]; try discriminate CC; injection CC as CC; congruence).
  all: try (subst th; cbn in A; discriminate A).
  all: try match goal with T : nth_error (_ ++ flat_map _ _) _ = Some _ |- _ =>
    destruct (Nat.lt_ge_cases u (List.length (s_threads s))) as [LT|LT]; [rewrite nth_error_app1 in T by exact LT; left; split; [exact T|]; intros [cc CC]; discriminate CC|
      rewrite nth_error_app2 in T by exact LT; apply nth_error_In in T; apply unchoke_threads in T as [pu ->]; discriminate A] end.
  all: try (left; split; [exact T|]; intros [cc CC]; try discriminate CC; injection CC as CC; lia).
  all: try (exfalso; subst th; revert A; try destruct rest; try destruct k; try destruct l; cbn; discriminate).
  - right. left. subst th. exists p, m, h0. split; [reflexivity|]. split; [reflexivity|]. split; [assumption|]. split; [reflexivity|]. eapply handle_calls; eassumption.
  - right. right. subst th. rewrite list_set_length. do 2 eexists. split; [reflexivity|]. split; [reflexivity|]. now left.
Qed.
(** What ends the process in the server itself. *)
Lemma crash_frame s a s' e : exec s a = Some (s', e) -> s_crashed s' = true ->
  (exists t, a = AGo t CPanic /\ exists th, nth_error (s_threads s) t = Some th /\ (at_storage th = true \/ exists p, th = THandler p HReceive /\ e = [EvMalformed p])) \/
  (exists t p i rest q, a = AGo t COk /\ nth_error (s_threads s) t = Some (THandler p (HHave i rest)) /\ nth_error (s_peers s) p = Some q /\ bf_add (q_bits q) i = None) \/
  (exists t p i rest, a = AGo t COk /\ nth_error (s_threads s) t = Some (THandler p (HCheck i rest)) /\ bf_has (s_have s) i = None).
Proof.
  intros H C. open_exec H; revert C; drop_facts; fields; intros C; try congruence.
  all: try (left; eexists; split; [reflexivity|]; eexists; split; [eassumption|left; reflexivity]).
  - left. eexists. split; [reflexivity|]. eexists. split; [eassumption|]. right. eexists. now split.
  - right. left. do 5 eexists. split; [reflexivity|]. split; [eassumption|]. split; eassumption.
  - right. right. do 4 eexists. split; [reflexivity|]. split; eassumption.
Qed.
(** All bitfields have the length of [blank]. *)
Definition lens_ok (s : sys) : Prop := zlen (s_have s) = zlen blank /\ (forall p q, nth_error (s_peers s) p = Some q -> zlen (q_bits q) = zlen blank) /\
  forall p i rest, In (THandler p (HRecord i rest)) (s_threads s) \/ In (THandler p (HCheck i rest)) (s_threads s) -> -8 < i < 8 * zlen blank.
Lemma in_fresh l l' (th : thread) : In th (l ++ l') -> In th l \/ In th l'. Proof. apply in_app_or. Qed.
Lemma lens_step s a s' e : lens_ok s -> exec s a = Some (s', e) -> lens_ok s'.
Proof.
  intros (L1 & L2 & L3) H. unfold lens_ok. split; [|split].
  - apply have_frame in H as [->|(t & k & p & i & _ & _ & B)]; [exact L1|]. apply bf_add_members in B as [B _]. congruence.
  - clear L3. open_exec H; drops; fields; intros pp qq EE.
    all: repeat match type of EE with nth_error (s_peers (drop_all _ _)) _ = _ => apply drop_all_peers in EE as [q0 [EE [->| ->]]] end; try exact (L2 _ _ EE).
    all: repeat match type of EE with
      | nth_error (list_set _ _ _) _ = Some _ => apply nth_set in EE as [[-> ->]|[? EE]]
      | nth_error (_ ++ [_]) _ = Some _ => apply nth_app in EE as [[-> ->]|[_ EE]]
      end; try exact (L2 _ _ EE); try reflexivity; cbn [q_bits set_id set_bits set_rchoked set_rinterested set_closed set_choked set_interested]; try (eapply L2; eassumption).
    + match goal with X : handle _ _ = _ |- _ => rewrite (handle_bits _ _ _ _ X) end. eapply L2; eassumption.
    + match goal with X : bf_add _ _ = Some _ |- _ => apply bf_add_members in X as [X _]; rewrite X end. eapply L2; eassumption.
  - open_exec H; drop_facts; fields; intros pp ii rr X; try (eapply L3; exact X).
    all: destruct X as [X|X]; inthreads X; try discriminate X; try (eapply L3; left; eassumption); try (eapply L3; right; eassumption).
    all: try match goal with X : THandler _ _ = THandler _ (next_have ?r) |- _ => destruct r; discriminate X | X : THandler _ _ = THandler _ (after_queue ?r) |- _ => destruct r; discriminate X end.
    all: try match goal with X : handle _ _ = (_, ?h), Y : THandler _ _ = THandler _ ?h |- _ => injection Y as -> <-; unfold handle in X; brk X; injection X as X1 X2; try discriminate X2; destruct (bf_items _); discriminate X2 end.
    + injection X as -> -> ->. match goal with X : bf_add (q_bits ?q) ?j = Some _, Y : nth_error _ _ = Some ?q |- _ => rewrite <- (L2 _ _ Y); assert (bf_has (q_bits q) j <> None) as D by (rewrite <- bf_add_domain; congruence) end.
      rewrite bf_has_domain in D. lia.
    + injection X as -> -> ->. eapply L3. left. eapply nth_error_In. eassumption.
Qed.
Lemma lens_start have : zlen have = zlen blank -> lens_ok (started have).
Proof. intros H. split; [exact H|]. split; [intros [|p] q Q; discriminate Q|]. intros p i rest [[]|[]]. Qed.
(** A goroutine that comes to the storage can go on whatever happens there. *)
Lemma handler_goes s t p h : s_crashed s = false -> (p < List.length (s_peers s))%nat -> nth_error (s_threads s) t = Some (THandler p h) ->
  match h with
  | HRequest | HPiece _ => forall c, In c [COk; CErr; CPanic] -> exec s (AGo t c) <> None
  | _ => True
  end.
Proof.
  intros C P T. destruct h; try exact I; intros c K; unfold P2PServer.exec; rewrite C; unfold step_thread; rewrite T; unfold step_handler; apply nth_error_Some in P;
    destruct (nth_error (s_peers s) p) as [q|]; try congruence; cbn [In] in K; repeat (destruct K as [<-|K]; [discriminate|]); destruct K.
Qed.
Lemma stored_goes s t p i ok b : s_crashed s = false -> (p < List.length (s_peers s))%nat -> nth_error (s_threads s) t = Some (THandler p (HPiece i)) ->
  bf_add (s_have s) i = Some b -> exec s (AGo t (CStored ok)) <> None.
Proof.
  intros C P T B. unfold P2PServer.exec. rewrite C. unfold step_thread. rewrite T. unfold step_handler. apply nth_error_Some in P. destruct (nth_error (s_peers s) p) as [q|]; [|congruence]. rewrite B. discriminate.
Qed.
Lemma piece_goes s t p i c : s_crashed s = false -> (p < List.length (s_peers s))%nat -> nth_error (s_threads s) t = Some (TPiece p i PRun) ->
  In c [CErr; CBad; CPanic] \/ (c = COk /\ member (s_have s) i) -> exec s (AGo t c) <> None.
Proof.
  intros C P T K. unfold P2PServer.exec. rewrite C. unfold step_thread. rewrite T. unfold step_piece. apply nth_error_Some in P. destruct (nth_error (s_peers s) p) as [q|]; [|congruence].
  destruct K as [K|[-> K]]; [cbn [In] in K; repeat (destruct K as [<-|K]; [discriminate|]); destruct K|]. apply bf_has_member in K. rewrite K. discriminate.
Qed.
(** Who is about to block a peer, and who does. *)
Lemma block_frame s a s' e u p i : exec s a = Some (s', e) -> nth_error (s_threads s') u = Some (TPiece p i PBlock) ->
  nth_error (s_threads s) u = Some (TPiece p i PBlock) \/ (a = AGo u CBad /\ nth_error (s_threads s) u = Some (TPiece p i PRun)).
Proof.
  intros H T. open_exec H; revert T; drop_facts; fields; intros T.
  all: try (left; exact T).
  all: threads T; try (left; exact T).
  all: try discriminate T.
  all: try match goal with T : nth_error (_ ++ flat_map _ _) _ = Some _ |- _ =>
    destruct (Nat.lt_ge_cases u (List.length (s_threads s))) as [LT|LT]; [rewrite nth_error_app1 in T by exact LT; left; exact T|
      rewrite nth_error_app2 in T by exact LT; apply nth_error_In in T; apply unchoke_threads in T as [pu T]; discriminate T] end.
  all: try (left; exact T).
  all: try (exfalso; revert T; try destruct rest; try destruct k; try destruct l; cbn; discriminate).
  injection T as -> ->. right. split; [reflexivity|assumption].
Qed.
Lemma blocked_frame s a s' e p : exec s a = Some (s', e) -> In (EvBlocked p) e -> exists t i, nth_error (s_threads s) t = Some (TPiece p i PBlock).
Proof.
  intros H I. open_exec H; revert I; drop_facts; fields; intros I; cbn [In] in I.
  all: repeat match type of I with _ \/ _ => destruct I as [I|I] | False => destruct I | In _ (if ?b then _ else _) => destruct b; cbn [In] in I end; try discriminate I.
  injection I as ->. eauto.
Qed.
(** Index is a uint32. *)
Lemma received_index s0 l s ev p m : runs s0 l = Some (s, ev) -> In (EvReceived p m) ev -> 0 <= m_index m.
Proof.
  revert s0 ev. induction l as [|a l IH]; cbn [P2PServer.runs]; intros s0 ev R I; [injection R as <- <-; destruct I|].
  destruct (exec s0 a) as [[s1 e1]|] eqn:H; [|discriminate]. destruct (runs s1 l) as [[s2 e2]|] eqn:R2; [|discriminate]. injection R as <- <-.
  apply in_app_or in I as [I|I]; [|eapply IH; eassumption]. clear R2 IH. open_exec H; revert I; drop_facts; fields; intros I; cbn [In] in I.
  all: repeat match type of I with _ \/ _ => destruct I as [I|I] | False => destruct I | In _ (if ?b then _ else _) => destruct b; cbn [In] in I end; try discriminate I.
  injection I as _ <-. lia.
Qed.
End Frame.
