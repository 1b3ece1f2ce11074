(** Proofs for C132. *)
From Verif Require Import GoBase GoBaseProofs GoMap PeerWire P2PServerProofs P2PConn P2PConnSpec P2PConnProofs P2PTurnSpec.

Definition at_place (r : breq) : place := let '(i, b, _) := r in (i, b).
(** The request the loop that receives has not answered yet. *)
Definition pend (h : hpc) : list place :=
  match h with
  | CHandle m => if is_type REQUEST m then [place_of m] else []
  | CCheck r | CBlock r | CPiece r _ _ => [at_place r]
  | _ => []
  end.
Definition turn_ok (s : kstate) (ev : list kevent) : Prop :=
  exists h, nth_error (k_threads s) 0 = Some (TServe h) /\
    (requests ev = answers ev ++ pend h \/ (h = CEnd /\ exists p, requests ev = answers ev ++ [p])).
Lemma requests_app a b : requests (a ++ b) = requests a ++ requests b.
Proof. unfold requests. apply flat_map_app. Qed.
Lemma answers_app a b : answers (a ++ b) = answers a ++ answers b.
Proof. unfold answers. apply flat_map_app. Qed.
Lemma turn_quiet s s' ev e : turn_ok s ev -> nth_error (k_threads s') 0 = nth_error (k_threads s) 0 -> requests e = [] -> answers e = [] -> turn_ok s' (ev ++ e).
Proof. intros (h & H & C) E R A. exists h. rewrite requests_app, answers_app, R, A, !app_nil_r. split; [congruence|exact C]. Qed.
Lemma other_turn s t c th s' e : base_ok s -> kinds_ok s -> nth_error (k_threads s) t = Some th -> (forall h, th <> TServe h) -> kexec s (KGo t c) = Some (s', e) ->
  nth_error (k_threads s') 0 = nth_error (k_threads s) 0 /\ requests e = [] /\ answers e = [].
Proof.
  intros B K E N H. destruct (other_step s t c th s' e B K E N H) as [A Q]. split; [exact A|]. split.
  - unfold kexec in H. rewrite E in H. destruct th as [h| | | | |]; [now destruct (N h)| | | | |destruct (k_crashed s); discriminate].
    all: kopen H; reflexivity.
  - clear -Q. unfold quiet in Q. rewrite tally_0 in Q. induction e as [|x e IH]; [reflexivity|].
    cbn [answers flat_map]. fold (answers e). rewrite IH by (intros y Y; apply Q; right; exact Y). specialize (Q x (or_introl eq_refl)).
    destruct x; try reflexivity; cbn [of_service] in Q; [rewrite Q; reflexivity|discriminate Q].
Qed.
Lemma turn_step s ev a s' e : base_ok s -> kinds_ok s -> turn_ok s ev -> kexec s a = Some (s', e) -> turn_ok s' (ev ++ e).
Proof.
  intros B K S H. destruct a as [t c|l|f|m].
  2,3,4: assert (0 < List.length (k_threads s))%nat as P by (destruct B as (_ & _ & _ & [h0 H0] & _); apply nth_error_Some; congruence);
    apply (turn_quiet s _ _ _ S); kopen H; kfields; try reflexivity; now rewrite nth_error_app1.
  destruct (nth_error (k_threads s) t) as [th|] eqn:E; [|unfold kexec in H; rewrite E in H; destruct (k_crashed s); discriminate].
  destruct th as [h| | | | |]. 2-6: (destruct (other_turn s t c _ s' e B K E ltac:(discriminate) H) as (A & Q1 & Q2); now apply (turn_quiet s)).
  assert (t = O) as -> by (destruct B as (_ & _ & _ & _ & U); eauto).
  assert (0 < List.length (k_threads s))%nat as P by (apply nth_error_Some; congruence).
  destruct S as (h' & E' & C). rewrite E in E'. injection E' as <-. destruct B as (F & _).
  pose proof (fun m => proj1 (complete_threads None s (brought m) F)) as CC. pose proof (proj1 (choke_all_threads s F)) as CA.
  unfold kexec in H. rewrite E in H. kopen H; unfold turn_ok; kfields; rewrite ?CC, ?CA.
  all: try (eexists; split; [now apply list_set_nth_eq|]).
  all: try (eexists; split; [exact E|rewrite app_nil_r; exact C]).
  all: (destruct C as [C|[C _]]; [|discriminate C]); rewrite requests_app, answers_app, C; cbn [pend requests answers flat_map app].
  all: rewrite ?app_nil_r, <- ?app_assoc.
  all: try (left; reflexivity).
  all: try (left; types; reflexivity).
  all: try (left; types; cbn [Z.eqb Pos.eqb CHOKE UNCHOKE HAVE BITFIELD CANCEL PIECE REQUEST app]; rewrite ?app_nil_r; reflexivity).
  all: try (right; split; [reflexivity|]; eexists; reflexivity).
  - right. split; [reflexivity|]. types. exists (place_of m). reflexivity.
  - left. destruct r as [[i b] n]. reflexivity.
Qed.
Lemma turn_start : turn_ok kstart [].
Proof. exists CRead. split; [reflexivity|left; reflexivity]. Qed.
Lemma turn_run l s ev : krun_of l s ev -> turn_ok s ev.
Proof.
  intros H. apply (krun_inv (fun s ev => kinds_ok s /\ turn_ok s ev) l s ev); [|clear|exact H].
  - split; [exact (kinds_run [] kstart [] eq_refl)|exact turn_start].
  - intros s ev a s' e B [K S] H. split; [exact (kinds_step _ _ _ _ B K H)|exact (turn_step _ _ _ _ _ B K S H)].
Qed.
Theorem answered_in_order l s ev : krun_of l s ev -> exists p, (List.length p <= 1)%nat /\ requests ev = answers ev ++ p.
Proof.
  intros H. destruct (turn_run _ _ _ H) as (h & _ & [E|[_ [p E]]]).
  - exists (pend h). split; [|exact E]. destruct h; cbn; auto with arith. destruct (is_type REQUEST m); cbn; auto with arith.
  - exists [p]. split; [auto with arith|exact E].
Qed.
(** A message is received only when nothing is left to answer. *)
Lemma recv_ready s a s' e m : base_ok s -> kexec s a = Some (s', e) -> In (KRecv m) e -> exists m', nth_error (k_threads s) 0 = Some (TServe (CTake m')).
Proof.
  intros (_ & _ & _ & _ & U) H I.
  assert (X : exists t m', nth_error (k_threads s) t = Some (TServe (CTake m'))).
  { unfold kexec, step_serve, step_pull, step_ask, step_flag, step_send, handle_message, take_lock, finish_write in H. brk H; injection H as <- <-; subst.
    all: cbn [In] in I; try (destruct I as [I|I]; [discriminate I|]); try (destruct I; fail); eauto. }
  destruct X as (t & m' & X). pose proof (U _ _ X). subst t. eauto.
Qed.
Theorem answered_before_next l s e1 m e2 : krun_of l s (e1 ++ KRecv m :: e2) -> requests e1 = answers e1.
Proof.
  intros H. destruct (run_event _ _ _ _ _ H) as (l1 & s1 & a & s2 & l2 & _ & R & X & _).
  destruct (recv_ready _ _ _ _ m (base_run _ _ _ R) X (or_introl eq_refl)) as (m' & E).
  destruct (turn_run _ _ _ R) as (h & E' & C). rewrite E in E'. injection E' as <-.
  destruct C as [C|[C _]]; [|discriminate C]. cbn [pend] in C. now rewrite app_nil_r in C.
Qed.
(** Counting. *)
Definition place_eqb (p q : place) : bool := (fst q =? fst p) && (snd q =? snd p).
Lemma asked_count p ev : asked_for p ev = zlen (filter (place_eqb p) (requests ev)).
Proof.
  unfold asked_for. induction ev as [|x ev IH]; [reflexivity|]. rewrite tally_cons, IH. unfold requests. cbn [flat_map]. rewrite filter_app.
  destruct x; try reflexivity. destruct (is_type REQUEST m); [|reflexivity]. unfold same_place, place_eqb. cbn [andb filter place_of fst snd].
  destruct ((m_index m =? fst p) && (m_begin m =? snd p)); cbn [app b2z]; [rewrite zlen_cons; lia|lia].
Qed.
Lemma given_count p ev : given p ev <= zlen (filter (place_eqb p) (answers ev)).
Proof.
  unfold given. induction ev as [|x ev IH]; [reflexivity|]. rewrite tally_cons. unfold answers in *. cbn [flat_map]. rewrite filter_app.
  destruct x; cbn [b2z filter app]; try exact IH.
  - destruct (is_type PIECE m); cbn [andb filter app b2z]; [|exact IH]. unfold same_place, place_eqb in *. cbn [place_of fst snd].
    destruct ((m_index m =? fst p) && (m_begin m =? snd p)); cbn [app b2z]; [rewrite zlen_cons; lia|lia].
  - destruct r as [[i b] n]. cbn [filter app]. destruct (place_eqb p (i, b)); cbn [app]; [rewrite zlen_cons; lia|lia].
Qed.
Theorem never_more l s ev p : krun_of l s ev -> given p ev <= asked_for p ev.
Proof.
  intros H. destruct (answered_in_order _ _ _ H) as (q & _ & E). rewrite asked_count, E, filter_app.
  pose proof (given_count p ev). unfold zlen in *. rewrite app_length. lia.
Qed.
