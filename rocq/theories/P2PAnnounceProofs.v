(** What is requested was announced and missing; what is announced is there. *)
From Coq Require Import Permutation.
From Verif Require Import GoBase GoBaseProofs Bitfield BitfieldSpec BitfieldProofs GoMap PeerWire NetIP Tracker P2PPeer P2PServer P2PServerSpec P2PServerProofs P2PSortProofs.

Ltac drops := repeat match goal with
  | |- context [fold_left (fun s p => match nth_error (s_peers s) p with Some q => drop_peer p q s | None => s end) ?l ?x] => fold (drop_all l x)
  end.
Ltac sums := repeat match goal with
  | E : nth_error (s_threads ?s) ?t = Some ?th |- context [tsum ?f (list_set ?t ?y (s_threads ?s))] => rewrite (tsum_set f t th y (s_threads s) E)
  | E : nth_error (s_threads ?s) ?t = Some ?th |- context [tsum ?f (list_set ?t ?y (s_threads ?s ++ ?l))] =>
      rewrite (tsum_set f t th y (s_threads s ++ l)) by (rewrite nth_error_app1; [exact E|apply nth_error_Some; congruence])
  | |- context [tsum ?f (?l ++ ?l')] => rewrite (tsum_app f l l')
  | |- context [tsum ?f [?x]] => rewrite (tsum_one f x)
  end.
Ltac drop_facts := drops; try match goal with |- context [drop_all ?l ?x] =>
  let A := fresh "DA" in
  pose proof (drop_all_same l x) as A; unfold same_but_peers in A; decompose [and] A; clear A;
  fields; repeat match goal with X : _ (drop_all l x) = _ |- _ => rewrite X; clear X | X : _ (s_reg (drop_all l x)) = _ |- _ => rewrite X; clear X end;
  repeat match goal with X : _ (drop_all l x) = _ |- _ => clear X | X : _ (s_reg (drop_all l x)) = _ |- _ => clear X end end.
Ltac same L := match goal with |- ?g => let T := type of L in constr_eq T g; exact L end.
Ltac counts := rewrite ?count_app, ?count_cons, ?count_nil.

Lemma in_list_set {A} t (y x : A) l : In x (list_set t y l) -> x = y \/ In x l.
Proof. revert t. induction l as [|z l IH]; intros [|t]; cbn; try tauto; [intuition|]. intros [->|H]; [auto|]. apply IH in H. tauto. Qed.
Lemma nth_set {A} k (x : A) l j y : nth_error (list_set k x l) j = Some y -> (j = k /\ y = x) \/ (j <> k /\ nth_error l j = Some y).
Proof.
  intros H. destruct (Nat.eq_dec k j) as [->|N].
  - left. split; [easy|]. assert (j < List.length l)%nat as Hj by (rewrite <- (list_set_length j x l); apply nth_error_Some; congruence).
    rewrite list_set_nth_eq in H by easy. congruence.
  - right. split; [congruence|]. now rewrite list_set_nth_neq in H.
Qed.
Lemma nth_app {A} (l : list A) x j y : nth_error (l ++ [x]) j = Some y -> (j = List.length l /\ y = x) \/ (j < List.length l)%nat /\ nth_error l j = Some y.
Proof.
  intros H. destruct (lt_dec j (List.length l)) as [A1|A1].
  - rewrite nth_error_app1 in H by easy. auto.
  - rewrite nth_error_app2 in H by lia. destruct (j - List.length l)%nat as [|k] eqn:K; cbn in H; [|now destruct k].
    injection H as ->. left. split; [lia|easy].
Qed.
Lemma bf_add_members b i b' : bf_add b i = Some b' -> zlen b' = zlen b /\ forall j, member b' j <-> member b j \/ (j = i /\ 0 <= i).
Proof.
  intros H. assert (bf_add b i <> None) as D by congruence. rewrite (proj2 (bf_domain b i)) in D.
  destruct (Z_lt_dec i 0) as [N|N].
  - assert (-8 < i < 0) as R by lia. assert (b <> []) as E by (intros ->; apply D; right; right; split; [lia|easy]).
    destruct (bf_negative b i R E) as [_ H']. rewrite H in H'. injection H' as ->. split; [easy|]. intros j. split; [tauto|]. intros [M|[_ M]]; [easy|lia].
  - destruct (bf_add_spec b i) as [b2 [E [L S]]]; [lia|]. rewrite H in E. injection E as <-. split; [easy|]. intros j. rewrite S. intuition lia.
Qed.
Lemma bf_has_member b i : bf_has b i = Some true <-> member b i.
Proof.
  split.
  - intros H. assert (bf_has b i <> None) as D by congruence. rewrite (proj1 (bf_domain b i)) in D.
    destruct (Z_lt_dec i 0) as [N|N].
    + assert (-8 < i < 0) as R by lia. assert (b <> []) as E by (intros ->; apply D; right; right; split; [lia|easy]).
      destruct (bf_negative b i R E) as [H' _]. congruence.
    + destruct (bf_has_spec b i) as [r [E S]]; [lia|]. apply S. congruence.
  - intros M. destruct (bf_has_spec b i (member_range _ _ M)) as [r [E S]]. rewrite E. f_equal. now apply S.
Qed.

Lemma member_nonneg b i : member b i -> 0 <= i.
Proof. intros H. apply member_range in H. lia. Qed.

Ltac inthreads X := repeat match type of X with
    | In ?th (_ ++ _) => apply in_app_or in X as [X|X]
    | In ?th (list_set _ _ _) => apply in_list_set in X as [X|X]
    | In ?th [_] => destruct X as [X|[]]
    | In ?th (flat_map _ _) => apply unchoke_threads in X as [? X]
    end.

(** * Announcements received *)
Lemma announced_more ev e p i : announced ev p i -> announced (ev ++ e) p i.
Proof. intros [m [H A]]. exists m. split; [apply in_or_app; auto|easy]. Qed.
(** The pieces a handler still has to go through. *)
Definition todo (h : hpc) : list Z :=
  match h with
  | HHave i rest => i :: rest
  | HRecord i rest | HCheck i rest => rest
  | HQueue (Some rest) | HToken (Some rest) | HInterest rest | HInterested rest => rest
  | _ => []
  end.
Definition thread_announced (ev : list event) (th : thread) : Prop :=
  match th with
  | THandler p h => forall i, In i (todo h) -> announced ev p i
  | TRequester p (RPick l) => forall i, In i l -> announced ev p i
  | _ => True
  end.
Lemma thread_announced_more ev e th : thread_announced ev th -> thread_announced (ev ++ e) th.
Proof. destruct th as [| |? ?|? []| | | | |]; cbn; auto; intros H i I; apply announced_more; auto. Qed.
Definition ann_ok (s : sys) (ev : list event) : Prop :=
  (forall p q i, nth_error (s_peers s) p = Some q -> member (q_bits q) i -> announced ev p i) /\
  (forall th, In th (s_threads s) -> thread_announced ev th).

Section Ann.
Variable own_hash own_id blank have0 : bytes.
Notation exec := (exec own_hash own_id blank).
Notation runs := (runs own_hash own_id blank).

Lemma peers_set_ann s ev e p q q' :
  (forall p q i, nth_error (s_peers s) p = Some q -> member (q_bits q) i -> announced ev p i) ->
  nth_error (s_peers s) p = Some q -> (forall i, member (q_bits q') i -> member (q_bits q) i \/ announced (ev ++ e) p i) ->
  forall p' q1 i, nth_error (list_set p q' (s_peers s)) p' = Some q1 -> member (q_bits q1) i -> announced (ev ++ e) p' i.
Proof.
  intros A E B p' q1 i E1 M. apply nth_set in E1 as [[-> ->]|[_ E1]].
  - apply B in M as [M|M]; [|easy]. apply announced_more. eauto.
  - apply announced_more. eauto.
Qed.
Lemma handle_bits q m q' h : handle q m = (q', h) -> q_bits q' = q_bits q.
Proof. unfold handle. intros H. brk H; injection H as <- <-; easy. Qed.
Lemma todo_next rest : todo (next_have rest) = rest. Proof. now destruct rest. Qed.
Lemma handle_todo q m q' h i : handle q m = (q', h) -> In i (todo h) -> announces_piece m i.
Proof.
  unfold handle. intros H. brk H; injection H as <- <-; rewrite ?todo_next; cbn [todo In]; try tauto.
  - intros [<-|[]]. left. split; [lia|easy].
  - intros I. right. split; [lia|]. now apply (proj2 (bf_items_spec _)).
Qed.
Lemma drop_all_peers l s p q : nth_error (s_peers (drop_all l s)) p = Some q ->
  exists q0, nth_error (s_peers s) p = Some q0 /\ (q = q0 \/ q = set_closed true q0).
Proof.
  revert q. apply (drop_all_ind (fun s' => forall q, nth_error (s_peers s') p = Some q -> exists q0, nth_error (s_peers s) p = Some q0 /\ (q = q0 \/ q = set_closed true q0)) l s).
  - intros q H. exists q. auto.
  - intros s1 p1 q1 H E1 q. fields. intros E. apply nth_set in E as [[-> ->]|[_ E]]; [|auto].
    destruct (H _ E1) as [q0 [A [->| ->]]]; eauto.
Qed.
Hypothesis blank_empty : forall i, ~ member blank i.
Lemma ann_step s ev a s' e : ann_ok s ev -> exec s a = Some (s', e) -> ann_ok s' (ev ++ e).
Proof.
  intros [P T] H. open_exec H; unfold ann_ok; split.
  all: drops.
  all: try match goal with |- forall p q i, nth_error _ p = Some q -> _ =>
    fields; intros pp qq ii EE MM;
    repeat match type of EE with nth_error (s_peers (drop_all _ _)) _ = _ => apply drop_all_peers in EE as [q0 [EE [->| ->]]] end;
    try (apply announced_more; now apply (P pp qq)) end.
  all: try match goal with EE : nth_error (s_peers ?s) ?pp = Some ?q0, MM : member (q_bits _) _ |- announced _ ?pp _ => apply announced_more; now apply (P pp q0) end.
  all: try match goal with EE : nth_error (list_set _ _ (s_peers ?s)) ?pp = Some ?q0, MM : member (q_bits _) _ |- announced _ ?pp _ =>
    apply nth_set in EE as [[-> ->]|[_ EE]]; [|apply announced_more; now apply (P pp q0)] end.
  all: try match goal with EE : nth_error (s_peers ?s) ?pp = Some ?q0, MM : member (q_bits _) _ |- announced _ ?pp _ => apply announced_more; now apply (P pp q0) end.
  all: try match goal with EE : nth_error (s_peers ?s ++ _) ?pp = Some ?q0, MM : member (q_bits _) _ |- announced _ ?pp _ =>
    apply nth_app in EE as [[_ ->]|[_ EE]]; [now apply blank_empty in MM|apply announced_more; now apply (P pp q0)] end.
  all: unfold block_addrs, spawn, goto, peer_is; try match goal with |- forall th, In th _ -> _ => let X := fresh in intros th X; revert X; drop_facts; fields end.
  all: intros; try (apply thread_announced_more; now apply T).
  all: repeat match goal with
    | X : In ?th (_ ++ _) |- thread_announced _ ?th => apply in_app_or in X as [X|X]
    | X : In ?th (list_set _ _ _) |- thread_announced _ ?th => apply in_list_set in X as [->|X]
    | X : In ?th [_] |- thread_announced _ ?th => destruct X as [<-|[]]
    end.
  all: try match goal with X : In ?th (flat_map _ _) |- _ => apply unchoke_threads in X as [pu ->]; exact I end.
  all: try (apply thread_announced_more; now apply T).
  all: try exact I.
  all: try match goal with E : nth_error (s_threads _) _ = Some _ |- _ => pose proof (T _ (nth_error_In _ _ E)) as TA end.
  all: cbn [thread_announced todo after_queue] in *; rewrite ?todo_next; try (intros ii II; apply announced_more; apply TA; cbn [In]; now auto).
  all: try (intros ii []).
  - rewrite (handle_bits _ _ _ _ Heqp0) in MM. apply announced_more. eauto.
  - intros ii II. exists m. split; [apply in_or_app; right; now left|]. exact (handle_todo _ _ _ _ _ Heqp0 II).
  - cbn [q_bits set_bits] in MM. apply announced_more. apply (bf_add_members _ _ _ Heqo1) in MM as [MM|[-> _]]; [eauto|]. apply TA. now left.
  - intros ii II. apply announced_more, TA. now destruct k.
  - intros ii II. apply announced_more, TA. now destruct k.
  - intros ii II. apply (Permutation_in _ (sort_slice_perm _ _ _ _ _ Heqo1)) in II. match goal with X : bf_items _ = _ :: _ |- _ => rewrite <- X in II end.
    apply (proj2 (bf_items_spec _)), diff_member in II as [II _]. apply announced_more. eauto.
Qed.

(** * The storage *)
Definition have_ok (s : sys) (ev : list event) : Prop := forall i, 0 <= i -> (member (s_have s) i <-> stored_in have0 ev i).
Lemma have_step s ev a s' e : have_ok s ev -> exec s a = Some (s', e) -> have_ok s' (ev ++ e).
Proof.
  intros L H. open_exec H; unfold have_ok, stored_in in *; drop_facts; fields; intros ii II; rewrite in_app_iff; specialize (L ii II).
  all: try (rewrite L; cbn [In]; split; [tauto|]; intros K; repeat (destruct K as [K|K]; try discriminate K; try contradiction K; auto); fail).
  all: match goal with X : bf_add _ _ = Some _ |- _ => rewrite (proj2 (bf_add_members _ _ _ X) ii) end; rewrite L; cbn [In].
  all: split; [intros [[K|K]|[-> K]]; auto|]; intros K; repeat (destruct K as [K|K]; try contradiction K; auto); injection K as ->; auto.
Qed.
Lemma have_mono s a s' e i : exec s a = Some (s', e) -> member (s_have s) i -> member (s_have s') i.
Proof.
  intros H. open_exec H; drop_facts; fields; auto.
  all: intros M; match goal with X : bf_add _ _ = Some _ |- _ => apply (proj2 (bf_add_members _ _ _ X)) end; auto.
Qed.

(** * Properties of each event, given what happened before *)
Definition always (Q : list event -> event -> Prop) (ev : list event) : Prop := forall ev1 x ev2, ev = ev1 ++ x :: ev2 -> Q ev1 x.
Lemma always_nil Q : always Q []. Proof. intros [|? ?] ? ? H; discriminate. Qed.
Lemma always_snoc Q ev x : always Q ev -> Q ev x -> always Q (ev ++ [x]).
Proof.
  intros A B ev1 y ev2 H. destruct (exists_last (l := y :: ev2)) as [l' [z E]]; [easy|].
  rewrite E, app_assoc in H. apply app_inj_tail in H as [H <-].
  destruct l' as [|w l']; cbn in E; injection E as <- E; [rewrite app_nil_r in H; now subst|].
  apply (A ev1 y l'). now subst.
Qed.
Lemma always_more Q ev e : always Q ev -> (forall e1 x e2, e = e1 ++ x :: e2 -> Q (ev ++ e1) x) -> always Q (ev ++ e).
Proof.
  induction e as [|x e IH] using rev_ind; [now rewrite app_nil_r|]. intros A B. rewrite app_assoc. apply always_snoc.
  - apply IH; [easy|]. intros e1 y e2 ->. apply (B e1 y (e2 ++ [x])). now rewrite <- app_assoc.
  - apply (B e x []). reflexivity.
Qed.

(** Peer p was asked for a piece it had announced, and that was not there when the server
    last looked. *)
Definition looked (p : nat) (ev : list event) (i : Z) : Prop :=
  exists e1 e2, ev = e1 ++ EvLooked p :: e2 /\ announced e1 p i /\ ~ stored_in have0 e1 i.
Lemma looked_more p ev e i : looked p ev i -> looked p (ev ++ e) i.
Proof. intros [e1 [e2 [-> H]]]. exists e1, (e2 ++ e). now rewrite <- app_assoc. Qed.
Definition pick_ok (s : sys) (ev : list event) : Prop :=
  forall p l, In (TRequester p (RPick l)) (s_threads s) -> forall i, In i l -> looked p ev i.
Lemma pick_step s ev a s' e : ann_ok s ev -> have_ok s ev -> pick_ok s ev -> exec s a = Some (s', e) -> pick_ok s' (ev ++ e).
Proof.
  intros [A _] V L H. open_exec H; unfold pick_ok in *; drop_facts; fields; intros pp ll X; inthreads X; try discriminate X.
  all: try (intros ii II; apply looked_more; now apply (L pp ll X)).
  - injection X as -> ->. intros ii II. apply (Permutation_in _ (sort_slice_perm _ _ _ _ _ Heqo1)) in II. match goal with X : bf_items _ = _ :: _ |- _ => rewrite <- X in II end.
    apply (proj2 (bf_items_spec _)), diff_member in II as [II N]. exists ev, []. split; [easy|]. split; [eauto|].
    intros S. apply N. apply V; [now apply member_nonneg in II|easy].
  - injection X as -> ->. intros ii II. apply looked_more. eapply L; [eapply nth_error_In; eassumption|now right].
Qed.
Definition share_ok (s : sys) : Prop :=
  forall p i q, In (TPiece p i q) (s_threads s) -> (q = PShare \/ (exists l, q = PHave l) \/ exists x l, q = PSend x l) -> member (s_have s) i.
Lemma share_step s a s' e : share_ok s -> exec s a = Some (s', e) -> share_ok s'.
Proof.
  intros L H. pose proof (fun i => have_mono s a s' e i H) as M. open_exec H; unfold share_ok in *; revert M; drop_facts; fields; intros M pp ii qq X; inthreads X; try discriminate X.
  all: try (intros K; now apply M, (L pp ii qq X)).
  all: injection X; intros ? ? ?; subst; intros K; try (destruct K as [K|[[? K]|(? & ? & K)]]; discriminate K).
  all: try (match goal with E : nth_error (s_threads _) _ = Some (TPiece _ _ _) |- _ => apply (L _ _ _ (nth_error_In _ _ E)); solve [eauto] end).
  now apply bf_has_member.
Qed.
(** What is asked for and what is announced. *)
Definition event_ok (ev : list event) (x : event) : Prop :=
  match x with
  | EvRequest p i => looked p ev i
  | EvSent p m => (forall i, announces_piece m i -> stored_in have0 ev i) /\
                  (m_type m = BITFIELD -> forall i, 0 <= i -> stored_in have0 ev i -> member (m_bitfield m) i)
  | _ => True
  end.
Lemma event_step s ev a s' e : have_ok s ev -> pick_ok s ev -> share_ok s -> always event_ok ev -> exec s a = Some (s', e) -> always event_ok (ev ++ e).
Proof.
  intros V P S A H. open_exec H; rewrite ?app_nil_r; try exact A; try (apply always_snoc; [exact A|exact I]).
  - match goal with |- always _ (_ ++ [?x; ?y]) => change [x; y] with ([x] ++ [y]) end. rewrite app_assoc.
    apply always_snoc; [|exact I]. apply always_snoc; [exact A|]. cbn. split.
    + intros i [[K _]|[_ K]]; [discriminate|]. apply V; [now apply member_nonneg in K|easy].
    + intros _ i R K. now apply V.
  - apply always_snoc; [exact A|]. cbn. split; [intros i [[K _]|[K _]]; discriminate|discriminate].
  - apply always_snoc; [exact A|]. cbn. split; [intros i [[K _]|[K _]]; discriminate|discriminate].
  - apply always_snoc; [exact A|]. cbn. eapply P; [eapply nth_error_In; eassumption|now left].
  - apply always_snoc; [exact A|]. cbn. split; [|discriminate]. intros ii [[_ <-]|[K _]]; [|discriminate].
    assert (member (s_have s) i) as M by (eapply S; [eapply nth_error_In; eassumption|eauto]).
    apply V; [now apply member_nonneg in M|easy].
  - apply always_snoc; [exact A|]. cbn. split; [intros i [[K _]|[K _]]; discriminate|discriminate].
Qed.
Lemma run_events l s ev : runs (started have0) l = Some (s, ev) -> ann_ok s ev /\ have_ok s ev /\ pick_ok s ev /\ share_ok s /\ always event_ok ev.
Proof.
  apply (runs_ind own_hash own_id blank (fun s ev => ann_ok s ev /\ have_ok s ev /\ pick_ok s ev /\ share_ok s /\ always event_ok ev)).
  - split; [split|split; [|split; [|split]]].
    + intros [|p] q i X; discriminate X.
    + intros th [].
    + intros i R. unfold stored_in. cbn. tauto.
    + intros p l0 [].
    + intros p i q [].
    + apply always_nil.
  - intros s1 ev1 a s2 e [A [B [C [D E]]]] H. split; [|split; [|split; [|split]]].
    + now apply (ann_step _ _ _ _ _ A H).
    + now apply (have_step _ _ _ _ _ B H).
    + now apply (pick_step _ _ _ _ _ A B C H).
    + now apply (share_step _ _ _ _ D H).
    + now apply (event_step _ _ _ _ _ B C D E H).
Qed.
End Ann.
