(** What the server does while it asks for a piece, as far as the composition with the
    connections needs it. *)
From Verif Require Import GoBase GoBaseProofs Bitfield GoMap PeerWire NetIP Tracker P2PPeer P2PServer P2PServerSpec P2PServerProofs P2PAnnounceProofs NodeServerProofs.

Ltac threads X := repeat match type of X with
  | nth_error (list_set _ _ _) _ = Some _ => apply nth_set in X as [[-> X]|[? X]]
  | nth_error (_ ++ [_]) _ = Some _ => apply nth_app in X as [[-> X]|[_ X]]
  end.
(** The piece has been asked for and its blocks have come. *)
Definition past (q : ppc) : bool := match q with PShare | PHave _ | PSend _ _ | PBlock => true | _ => false end.
Section Frame.
Variable own_hash own_id blank : bytes.
Notation exec := (exec own_hash own_id blank).
Set Default Proof Using "Type".

Lemma request_event s a s' e p i : exec s a = Some (s', e) -> In (EvRequest p i) e ->
  e = [EvRequest p i] /\ exists t l, a = AGo t COk /\ nth_error (s_threads s) t = Some (TRequester p (RPick l)).
Proof.
  intros H I. open_exec H; cbn in I; repeat match type of I with _ \/ _ => destruct I as [I|I] end; try discriminate I; try contradiction.
  injection I as <- <-. split; [reflexivity|]. eauto.
Qed.
Lemma requested_event s a s' e p i : exec s a = Some (s', e) -> In (EvRequested p i) e ->
  e = [EvRequested p i] /\ exists t c, a = AGo t c /\ nth_error (s_threads s) t = Some (TPiece p i PRun) /\ nth_error (s_threads s') t <> Some (TPiece p i PRun).
Proof.
  intros H I. open_exec H; cbn in I; repeat match type of I with _ \/ _ => destruct I as [I|I] end; try discriminate I; try contradiction.
  all: injection I as <- <-; split; [reflexivity|]; do 2 eexists; split; [reflexivity|]; split; [eassumption|]; fields; rewrite list_set_nth_eq by (apply nth_error_Some; congruence); discriminate.
Qed.
Lemma blocked_event s a s' e p : exec s a = Some (s', e) -> In (EvBlocked p) e -> exists t i, a = AGo t COk /\ nth_error (s_threads s) t = Some (TPiece p i PBlock).
Proof.
  intros H I. open_exec H; cbn in I; repeat match type of I with _ \/ _ => destruct I as [I|I] end; try discriminate I; try contradiction.
  all: injection I as <-; eauto.
Qed.
Lemma have_event s a s' e x m : exec s a = Some (s', e) -> In (EvSent x m) e -> m_type m = HAVE ->
  exists t p i l, a = AGo t COk /\ nth_error (s_threads s) t = Some (TPiece p i (PSend x l)) /\ m = mk_have i.
Proof.
  intros H I T. open_exec H; cbn in I; repeat match type of I with _ \/ _ => destruct I as [I|I] end; try discriminate I; try contradiction.
  all: injection I as <- <-; try discriminate T; eauto 10.
Qed.
Lemma past_frame s a s' e t p i q : exec s a = Some (s', e) -> nth_error (s_threads s') t = Some (TPiece p i q) -> past q = true ->
  (exists q0, nth_error (s_threads s) t = Some (TPiece p i q0) /\ past q0 = true) \/
  (nth_error (s_threads s) t = Some (TPiece p i PRun) /\ (a = AGo t COk \/ a = AGo t CBad)).
Proof.
  intros H T A. open_exec H; revert T; drop_facts; fields; intros T.
  all: threads T; try discriminate T; try (left; exists q; split; [exact T|exact A]).
  all: try (injection T as -> -> ->; first [discriminate A|right; split; [assumption|auto]; fail|left; eexists; split; [eassumption|reflexivity]]).
  all: try match goal with T : nth_error (_ ++ flat_map _ _) _ = Some _ |- _ =>
    destruct (Nat.lt_ge_cases t (List.length (s_threads s))) as [LT|LT]; [rewrite nth_error_app1 in T by exact LT; left; exists q; split; [exact T|exact A]|
      rewrite nth_error_app2 in T by exact LT; apply nth_error_In in T; apply unchoke_threads in T as [pu T]; discriminate T] end.
Qed.
Lemma threads_grow s a s' e : exec s a = Some (s', e) -> (List.length (s_threads s) <= List.length (s_threads s'))%nat.
Proof. intros H. open_exec H; drop_facts; fields; rewrite ?app_length, ?list_set_length, ?app_length; lia. Qed.
(** At most one goroutine asks a peer for a piece. *)
Lemma one_token s p t u x y : tokens_ok s -> nth_error (s_threads s) t = Some x -> nth_error (s_threads s) u = Some y -> token_of p x = 1 -> token_of p y = 1 -> t = u.
Proof.
  intros T X Y Ex Ey. destruct (Nat.eq_dec t u) as [->|N]; [reflexivity|exfalso]. destruct (T p) as [A _]. pose proof (tsum_ge2 (token_of p) t u x y _ (token_nonneg p) X Y N).
  unfold queued_of in A. pose proof (one_range (smem Nat.eqb p (g_queued (s_reg s)))). lia.
Qed.
Lemma run_token p i : token_of p (TPiece p i PRun) = 1. Proof. cbn. now rewrite Nat.eqb_refl. Qed.
Lemma pick_token p l : token_of p (TRequester p (RPick l)) = 1. Proof. cbn. now rewrite Nat.eqb_refl. Qed.
End Frame.
