(** The tables and the lock. *)
From Verif Require Import GoBase GoBaseProofs Bitfield BitfieldSpec BitfieldProofs GoMap PeerWire NetIP Tracker P2PPeer P2PServer P2PServerSpec P2PRaceSpec
  P2PServerProofs P2PSortProofs P2PLockProofs P2PAnnounceProofs P2PRegistryProofs P2PServerThms.

Section Race.
Variable hash id blank : bytes.
Notation exec := (exec hash id blank).
Set Default Proof Using "Type".

Ltac replay := repeat match goal with E : ?x = _ |- context [match ?x with _ => _ end] => rewrite E | E : ?x = _ |- context [if ?x then _ else _] => rewrite E end.
Lemma untouched s u a s' e g : locked_ok s -> s_mu s = Some u -> ~ turn_of u a -> (forall t c p i, a = AGo t c -> nth_error (s_threads s) t <> Some (TPiece p i PDelete)) -> exec s a = Some (s', e) ->
  s_reg s' = s_reg s /\ exec (set_reg g s) a = Some (set_reg g s', e).
Proof.
  intros L M N ND H. unfold locked_ok in L. open_exec H; drop_facts; fields; try congruence.
  all: try match goal with E : nth_error (s_threads ?s) ?t1 = Some ?th, L : lock_ok (s_threads ?s) _ |- _ =>
    lazymatch eval cbn in (holding th) with true => let X := fresh in pose proof (L _ _ E eq_refl) as X; exfalso; apply N; rewrite M in X; injection X as ->; eexists; reflexivity | _ => idtac end end.
  all: try (exfalso; eapply ND; [reflexivity|eassumption]).
  all: split; [reflexivity|].
  all: unfold P2PServer.exec, step_thread, step_handler, step_requester, step_piece, hand_over, add_peer; fields; replay; try reflexivity.
Qed.
End Race.

Section Final.
Variable hash id : bytes.
Variable n : Z.
Variable have : bytes.
Notation run_of := (run_of hash id n have).
Notation goes_on := (goes_on hash id n).
Set Default Proof Using "Type".
Theorem locked l s ev u a s' e : run_of l s ev -> s_mu s = Some u -> ~ turn_of u a -> goes_on s [a] s' e ->
  leaves_tables hash id n s a s' e \/ exists i, ends_request hash id n s a s' e i.
Proof.
  intros R M N G. apply run_inv in R. pose proof G as [blank [B _]]. apply goes_one in G as [blank' [B' H]]. assert (blank' = blank) as -> by congruence.
  assert (D : (exists t c p i, a = AGo t c /\ nth_error (s_threads s) t = Some (TPiece p i PDelete)) \/ (forall t c p i, a = AGo t c -> nth_error (s_threads s) t <> Some (TPiece p i PDelete))).
  { destruct a as [t c| | | | | | | | | |]; try (right; intros; congruence). destruct (nth_error (s_threads s) t) as [th|] eqn:T; [|right; intros ? ? ? ? [= <- <-]; congruence].
    destruct th; try (right; intros ? ? ? ? [= <- <-]; congruence). destruct q; try (right; intros ? ? ? ? [= <- <-]; congruence). left. eauto 8. }
  destruct D as [(t & c & p & i & -> & T)|D].
  - right. exists i. intros g. exists blank. split; [exact B|]. cbn [runs]. unfold exec in *. fields. destruct (s_crashed s); [discriminate|]. unfold step_thread in *. fields. rewrite T in *. unfold step_piece in *. fields.
    destruct (nth_error (s_peers s) p); [|discriminate]. destruct c; try discriminate. injection H as <- <-. reflexivity.
  - left. destruct (untouched hash id blank s u a s' e (s_reg s) (v_locked _ _ _ R) M N D H) as [E _]. split; [exact E|]. intros g. exists blank. split; [exact B|]. cbn [runs].
    destruct (untouched hash id blank s u a s' e g (v_locked _ _ _ R) M N D H) as [_ ->]. now rewrite app_nil_r.
Qed.
End Final.

From Verif Require Import P2PConn P2PConnSpec P2PConnProofs.
Ltac replay := repeat match goal with E : ?x = _ |- context [match ?x with _ => _ end] => rewrite E | E : ?x = _ |- context [if ?x then _ else _] => rewrite E end.
Lemma kgoes_one s a s' e : kgoes_on s [a] s' e <-> kexec s a = Some (s', e).
Proof. unfold kgoes_on. cbn [kruns]. destruct (kexec s a) as [[s1 e1]|]; split; try discriminate; intros [= <- <-]; now rewrite ?app_nil_r. Qed.
Theorem klocked l s ev u a s' e : krun_of l s ev -> k_mu s = Some u -> (forall c, a <> KGo u c) -> kgoes_on s [a] s' e -> kleaves_tables s a s' e.
Proof.
  intros R M N G. apply base_run in R as (_ & _ & L & _). apply kgoes_one in G. unfold kleaves_tables. 
  assert (X : k_inflight s' = k_inflight s /\ k_cancelled s' = k_cancelled s /\ forall x y, kexec (set_kinflight x (set_kcancelled y s)) a = Some (set_kinflight x (set_kcancelled y s'), e)).
  { kopen G; kfields; try congruence.
    all: try match goal with E : nth_error (k_threads ?s) ?t1 = Some ?th |- _ =>
      lazymatch eval cbn in (writing th) with true => let X := fresh in pose proof (L _ _ E eq_refl) as X; exfalso; rewrite M in X; injection X as ->; eapply N; reflexivity | _ => idtac end end.
    all: try match goal with X : swap ?f _ = Some _ |- _ => pose proof X as X0; unfold swap in X; destruct f; brk X; injection X as <-; kfields end.
    all: split; [reflexivity|]; split; [reflexivity|]; intros x y.
    all: unfold kexec, step_serve, step_pull, step_ask, step_flag, step_send, handle_message, take_lock, finish_write, running, swap in *; kfields; replay; try reflexivity.
    all: destruct f; brk Heqo1; reflexivity. }
  destruct X as (A & B & C). split; [exact A|]. split; [exact B|]. intros x y. apply kgoes_one. apply C.
Qed.
Theorem one_writer l s ev t u : krun_of l s ev -> kwrites s t -> kwrites s u -> t = u.
Proof.
  intros R. apply base_run in R as (_ & _ & L & _).
  assert (X : forall t, kwrites s t -> k_mu s = Some t).
  { intros v (c & s' & e & m & G & I). apply kgoes_one in G. kopen G; cbn [In] in I; destruct I as [I|I]; repeat (destruct I as [I|I]; try discriminate I); try easy.
    all: match goal with E : nth_error (k_threads ?s) ?t1 = Some ?th |- _ => exact (L _ _ E eq_refl) end. }
  intros A B. apply X in A, B. congruence.
Qed.
