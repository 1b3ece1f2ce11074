(** A peer is left idle only if others fetch what it has. *)
From Verif Require Import GoBase GoBaseProofs Bitfield BitfieldSpec BitfieldProofs GoMap PeerWire PeerWireSpec PeerWireProofs NetIP Tracker P2PPeer P2PServer P2PServerSpec P2PServerProofs P2PSortProofs P2PAnnounceProofs P2PRegistryProofs P2PLockProofs P2PUsefulProofs P2POriginProofs P2PSoloProofs P2PServerThms P2PIdleSpec.

Section Idle.
Variable hash id : bytes.
Variable n : Z.
Variable have : bytes.
Notation run_of := (P2PServerSpec.run_of hash id n have).
Notation between := (fetched_between hash id n have).

Definition pick_left (l : list action) (ev : list event) (p : nat) (rest : list Z) : Prop :=
  exists l0 l1 s0 f e1 q0, l = l0 ++ l1 /\ run_of l0 s0 (f ++ [EvLooked p]) /\ ev = (f ++ [EvLooked p]) ++ e1 /\ (forall x, In x e1 -> needs_lock x = false) /\
    nth_error (s_peers s0) p = Some q0 /\ forall i, member (q_bits q0) i -> ~ stored_in have f i -> In i rest \/ between l0 l i.
Definition idle_ok (l : list action) (s : sys) (ev : list event) : Prop :=
  forall t p rest, nth_error (s_threads s) t = Some (TRequester p (RPick rest)) -> pick_left l ev p rest.

Lemma between_more l0 l i a : between l0 l i -> between l0 (l ++ [a]) i.
Proof. intros (x & y & s & ev & -> & R & F). exists x, (y ++ [a]), s, ev. rewrite <- !app_assoc. auto. Qed.
Lemma left_more l ev p rest a e : pick_left l ev p rest -> (forall x, In x e -> needs_lock x = false) -> pick_left (l ++ [a]) (ev ++ e) p rest.
Proof.
  intros (l0 & l1 & s0 & f & e1 & q0 & -> & R & -> & N & Q & H) NE. exists l0, (l1 ++ [a]), s0, f, (e1 ++ e), q0.
  split; [now rewrite <- app_assoc|]. split; [exact R|]. split; [now rewrite <- app_assoc|]. split; [intros x X; apply in_app_or in X as [X|X]; auto|]. split; [exact Q|].
  intros i M S. destruct (H i M S) as [I|B]; [now left|right; now apply between_more].
Qed.
Lemma run_snoc blank l s ev a s' e : bf_new n = Some blank -> run_of l s ev -> exec hash id blank s a = Some (s', e) -> run_of (l ++ [a]) s' (ev ++ e).
Proof. intros B R H. eapply run_more; [exact R|]. exists blank. split; [exact B|]. cbn [runs]. rewrite H. now rewrite app_nil_r. Qed.

Lemma idle_step blank l s ev a s' e : bf_new n = Some blank -> run_of l s ev -> inv l s ev -> have_ok have s ev -> idle_ok l s ev ->
  exec hash id blank s a = Some (s', e) -> idle_ok (l ++ [a]) s' (ev ++ e).
Proof.
  intros B R V HV O H t pp rest T. pose proof (v_locked _ _ _ V) as LK. pose proof (run_snoc _ _ _ _ _ _ _ B R H) as R'.
  destruct (turn_dec t a) as [[c ->]|N].
  - pose proof H as H0. open_exec H; revert T R'; drop_facts; fields; intros T R'.
    all: repeat match type of T with
      | nth_error (list_set ?t0 ?x ?l) ?t0 = Some _ => rewrite list_set_nth_eq in T by (rewrite ?app_length; cbn [List.length]; match goal with X : nth_error (s_threads ?s) t0 = Some _ |- _ => assert (t0 < List.length (s_threads s))%nat by (apply nth_error_Some; congruence); lia end)
      | nth_error (_ ++ [_]) _ = Some _ => apply nth_app in T as [[_ T]|[_ T]]
      end; try discriminate T; try congruence.
    all: injection T; intros; subst.
    + eexists (l ++ [_]), [], _, ev, [], _. split; [now rewrite app_nil_r|]. split; [exact R'|]. split; [now rewrite app_nil_r|]. split; [intros x []|]. split; [fields; exact Heqo0|].
      intros i M S. left. apply (Permutation.Permutation_in _ (Permutation.Permutation_sym (sort_slice_perm _ _ _ _ _ Heqo1))). rewrite <- Heql1.
      apply (proj2 (bf_items_spec _)), diff_member. split; [exact M|]. intros X. apply S, HV; [now apply member_nonneg in M|exact X].
    + rewrite app_nil_r. destruct (O _ _ _ Heqo) as (l0 & l1 & s0 & f & e1 & q0 & -> & R0 & -> & NL & Q & H). exists l0, (l1 ++ [AGo t COk]), s0, f, e1, q0.
      split; [now rewrite <- app_assoc|]. split; [exact R0|]. split; [reflexivity|]. split; [exact NL|]. split; [exact Q|].
      intros i M S. destruct (H i M S) as [[<-|I]|Bt]; [|now left|right; now apply between_more]. right.
      exists l1, [AGo t COk], s, ((f ++ [EvLooked pp]) ++ e1). split; [now rewrite <- app_assoc|]. split; [exact R|].
      pose proof (v_inflight _ _ _ V z) as Fl. rewrite Heqo1 in Fl. cbn in Fl. destruct (tsum_pos (piece_of z) (s_threads s)) as (u & th & U & P); [lia|].
      destruct th; cbn in P; try lia. destruct (Z.eqb_spec z i) as [<-|NE]; [|cbn in P; lia]. eexists _, _. eapply nth_error_In. exact U.
  - assert (nth_error (s_threads s) t = Some (TRequester pp (RPick rest))) as T0 by (eapply turn_other; [exact LK|reflexivity|discriminate|exact N|exact H|exact T]).
    apply left_more; [eapply O; eassumption|]. assert (s_mu s = Some t) as M by (exact (LK _ _ T0 eq_refl)).
    exact (proj1 (proj2 (held_step _ _ _ _ _ _ _ _ LK M N H))).
Qed.
Theorem idle_taken l s ev p : run_of l s ev -> leaves_idle p s ->
  exists l0 l1 s0 f e1 q, l = l0 ++ l1 /\ run_of l0 s0 (f ++ [EvLooked p]) /\ ev = (f ++ [EvLooked p]) ++ e1 /\ (forall x, In x e1 -> needs_lock x = false) /\
    nth_error (s_peers s0) p = Some q /\ forall i, member (q_bits q) i -> ~ stored_in have f i -> between l0 l i.
Proof.
  intros R L. apply In_nth_error in L as [t T]. assert (O : idle_ok l s ev).
  { pose proof R as (blank & B & Z & R0). clear T.
    enough (run_of l s ev /\ have_ok have s ev /\ idle_ok l s ev) by tauto. clear R. revert R0.
    apply (runs_acts_ind hash id blank (fun l s ev => run_of l s ev /\ have_ok have s ev /\ idle_ok l s ev)).
    - split; [exists blank; auto|]. split; [intros j J; unfold stored_in; cbn; tauto|]. intros [|u] ? ? U; discriminate U.
    - intros l1 s1 ev1 a s2 e (R1 & H1 & O1) E. split; [eapply run_snoc; eassumption|]. split; [eapply have_step; eassumption|].
      eapply idle_step; try eassumption. exact (run_inv hash id n have _ _ _ R1). }
  destruct (O _ _ _ T) as (l0 & l1 & s0 & f & e1 & q0 & H1 & H2 & H3 & H4 & H5 & H6). exists l0, l1, s0, f, e1, q0. repeat (split; [assumption|]).
  intros i M S. now destruct (H6 i M S) as [[]|X].
Qed.
End Idle.
