(** When a request is entered, and when it is refused at once (for PropConn.v). *)
From Verif Require Import GoBase GoBaseProofs GoMap PeerWire P2PConn P2PConnSpec P2PConnProofs.

Definition pulled (r : breq) (ev : list kevent) : Prop := exists ea u l eb, ev = ea ++ KPulled u l :: eb /\ In r l.
Definition free (r : breq) (ev : list kevent) : Prop := exists e0 e1, ev = e0 ++ e1 /\ pulled r e0 /\ they_choke e0 = false.
Lemma pulled_more r ev e : pulled r ev -> pulled r (ev ++ e).
Proof. intros (ea & u & l & eb & -> & I). exists ea, u, l, (eb ++ e). rewrite <- app_assoc. auto. Qed.
Lemma free_more r ev e : free r ev -> free r (ev ++ e).
Proof. intros (e0 & e1 & -> & P & C). exists e0, (e1 ++ e). rewrite app_assoc. auto. Qed.
Definition asks (th : kthread) (ev : list kevent) : Prop :=
  match th with
  | TPull todo _ => forall r, In r todo -> pulled r ev
  | TAsk r QFirst => pulled r ev
  | TAsk r QJoin => free r ev
  | _ => True
  end.
Lemma asks_more th ev e : asks th ev -> asks th (ev ++ e).
Proof. destruct th as [| |r []| | |]; cbn; auto using pulled_more, free_more. Qed.
Definition asks_ok (s : kstate) (ev : list kevent) : Prop := forall t th, nth_error (k_threads s) t = Some th -> asks th ev.
Lemma asks_set s ev e t th s' : asks_ok s ev -> k_threads s' = list_set t th (k_threads s) -> asks th (ev ++ e) -> asks_ok s' (ev ++ e).
Proof. intros A E B u x H. rewrite E in H. apply threads_set in H as [(-> & -> & _)|(_ & H)]; [exact B|]. apply asks_more. eauto. Qed.
Lemma asks_new s ev e th s' : asks_ok s ev -> k_threads s' = k_threads s ++ [th] -> asks th (ev ++ e) -> asks_ok s' (ev ++ e).
Proof. intros A E B u x H. rewrite E in H. apply threads_app in H as [(-> & ->)|H]; [exact B|]. apply asks_more. eauto. Qed.
Lemma asks_step s ev a s' e : base_ok s -> flags_ok s ev -> asks_ok s ev -> kexec s a = Some (s', e) -> asks_ok s' (ev ++ e).
Proof.
  intros (F & _) (Fl & _) A H.
  pose proof (fun m => proj1 (complete_threads None s (brought m) F)) as CC. pose proof (proj1 (choke_all_threads s F)) as CA.
  kopen H; swaps.
  all: try (eapply (asks_set s); [exact A|kfields; rewrite ?CC, ?CA; reflexivity|exact I]).
  all: try (intros u x Q; kfields_in Q; apply asks_more; eauto; fail).
  all: try (eapply (asks_new s); [exact A|kfields; rewrite ?CC, ?CA; reflexivity|exact I]).
  - (* requestPiece starts a goroutine *)
    rewrite app_nil_r. intros u x Q. kfields_in Q. match goal with X : nth_error _ _ = Some (TPull _ _) |- _ => pose proof (A _ _ X) as P; cbn in P end. thread_in Q; subst.
    + apply P. now left.
    + intros r I. apply P. now right.
    + eauto.
  - (* not refused *)
    eapply (asks_set s); [exact A|reflexivity|]. match goal with X : nth_error _ _ = Some (TAsk _ QFirst) |- _ => pose proof (A _ _ X) as P; cbn in P end.
    exists ev, []. rewrite !app_nil_r. split; [reflexivity|]. split; [exact P|]. congruence.
  - eapply (asks_new s); [exact A|reflexivity|]. intros r I. exists ev. eexists. eexists. exists []. split; [reflexivity|exact I].
Qed.
Lemma asks_run l s ev : krun_of l s ev -> asks_ok s ev.
Proof.
  intros R. apply (krun_inv (fun s ev => flags_ok s ev /\ asks_ok s ev) l s ev); [| |exact R].
  - split; [exact (flags_run [] kstart [] eq_refl)|]. intros [|[|t]] th H; cbn in H; try discriminate. injection H as <-. exact I.
  - intros s0 ev0 a s' e B [F A] H. split; [eapply flags_step|eapply asks_step]; eauto.
Qed.
Lemma pending_free l s e1 t r e2 : krun_of l s (e1 ++ KPending t r :: e2) ->
  exists ea u bl eb ec, e1 = ea ++ KPulled u bl :: eb ++ ec /\ In r bl /\ they_choke (ea ++ KPulled u bl :: eb) = false.
Proof.
  intros R. destruct (run_event _ _ _ _ _ R) as (l1 & s1 & a & s2 & l2 & -> & R1 & E & G). pose proof (asks_run _ _ _ R1) as A.
  assert (exists v, nth_error (k_threads s1) v = Some (TAsk r QJoin)) as [v V].
  { remember [KPending t r] as x eqn:Eev. kopen E; try discriminate Eev; injection Eev as <- <-; eauto. }
  destruct (A _ _ V) as (e0 & ec & -> & (ea & u & bl & eb & -> & I) & C). exists ea, u, bl, eb, ec. rewrite <- app_assoc. auto.
Qed.
Lemma refused_choked l s e1 t r e2 : krun_of l s (e1 ++ KRefused t r :: e2) -> they_choke e1 = true.
Proof.
  intros R. destruct (run_event _ _ _ _ _ R) as (l1 & s1 & a & s2 & l2 & -> & R1 & E & G). destruct (flags_run _ _ _ R1) as (A & _).
  remember [KRefused t r] as x eqn:Eev. kopen E; try discriminate Eev. congruence.
Qed.
