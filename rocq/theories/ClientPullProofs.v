(** Calls of requestPiece and their requestBlock goroutines. *)
From Verif Require Import GoBase GoBaseProofs GoMap PeerWire P2PConn P2PConnSpec P2PConnProofs P2PServerProofs Client.

Definition other (th : kthread) : bool := match th with TAsk _ _ | TPull _ _ => false | _ => true end.
Definition of_pull (e : kevent) : bool := match e with KPulled _ _ | KPullEnd _ | KRefused _ _ | KReturned _ _ _ => true | _ => false end.
Inductive tmove (l : list kthread) : list kthread -> list kevent -> Prop :=
| TmOther t x y e : nth_error l t = Some x -> other x = true -> x <> TOver -> other y = true -> tally of_pull e = 0 -> (forall u, tally (ev_pending u) e = 0) -> tmove l (list_set t y l) e
| TmAsk t r q q' e : nth_error l t = Some (TAsk r q) -> q <> QDone ->
    (q' <> QDone /\ tally of_pull e = 0) \/ (q' = QDone /\ (e = [KRefused t r] \/ exists o, e = [KReturned t r o])) -> tmove l (list_set t (TAsk r q') l) e
| TmSpawn t r todo kids : nth_error l t = Some (TPull (r :: todo) kids) -> tmove l (list_set t (TPull todo (kids ++ [List.length l])) l ++ [TAsk r QFirst]) []
| TmEnd t kids : nth_error l t = Some (TPull [] kids) ->
    (forall x th, In x kids -> nth_error l x = Some th -> exists r, th = TAsk r QDone) -> tmove l (list_set t TOver l) [KPullEnd t]
| TmPull bl : tmove l (l ++ [TPull bl []]) [KPulled (List.length l) bl]
| TmNew x : other x = true -> tmove l (l ++ [x]) [].
Lemma running_nil K kids : running K kids = [] -> forall x th, In x kids -> nth_error (k_threads K) x = Some th -> exists r, th = TAsk r QDone.
Proof.
  unfold running. intros H x th I N. destruct th as [h|td ks|r q|f p|m p|].
  all: try (assert (In x []) as []; rewrite <- H; apply filter_In; rewrite N; auto; fail).
  destruct q; try (assert (In x []) as []; rewrite <- H; apply filter_In; rewrite N; auto; fail). eauto.
Qed.
Lemma list_set_same {A} t (x : A) l : nth_error l t = Some x -> list_set t x l = l.
Proof. revert t. induction l as [|y l IH]; intros [|t] H; try discriminate; cbn in *; [now injection H as ->|]. now rewrite IH. Qed.
Lemma kmove K a K' e : base_ok K -> kexec K a = Some (K', e) -> tmove (k_threads K) (k_threads K') e.
Proof.
  intros (F & Cr & W & [h0 S0] & _) H.
  pose proof (fun m => proj1 (complete_threads None K (brought m) F)) as CC. pose proof (proj1 (choke_all_threads K F)) as CA.
  kopen H; kfields; rewrite ?CC, ?CA.
  all: try (match goal with X : swap ?f _ = Some ?k |- _ => assert (k_threads k = k_threads K) as -> by (destruct f; cbn in X; brk X; injection X as <-; reflexivity) end).
  all: try (eapply TmOther; [eassumption| | | |..]; try reflexivity; try discriminate; intros; reflexivity).
  all: try (eapply TmAsk; [eassumption|discriminate|]; first [left; split; [discriminate|reflexivity]|right; split; [reflexivity|eauto]]).
  all: try (now apply TmSpawn).
  all: try (now apply TmPull).
  all: try (now apply TmNew).
  all: try (eapply TmEnd; [eassumption|]; now apply running_nil).
  (* CHaves with the flag already set *)
  match goal with X : nth_error (k_threads ?s) ?t = Some ?x |- tmove _ (k_threads ?s) [] => rewrite <- (list_set_same t x (k_threads s) X) at 2; eapply TmOther; [exact X|..]; try reflexivity; try discriminate; intros; reflexivity end.
Qed.

(** One call: kids, the blocks they are for, the blocks left. *)
Definition kid_ok (p k : nat) (l : list kthread) (e1 ev : list kevent) (errs : list (nat * nat)) (x : nat) (r : breq) : Prop :=
  tally (ev_pending x) e1 = 0 /\ exists q, nth_error l x = Some (TAsk r q) /\ (q = QDone -> In (p, k) errs \/ In (KReturned x r None) ev).
Record group (p : nat) (l : list kthread) (ev : list kevent) (errs : list (nat * nat)) : Prop := {
  gr_pulls : forall e1 k bl e2, ev = e1 ++ KPulled k bl :: e2 -> exists kids rs todo, bl = rs ++ todo /\ Forall2 (kid_ok p k l e1 ev errs) kids rs /\
    (nth_error l k = Some (TPull todo kids) \/
     (nth_error l k = Some TOver /\ todo = [] /\ In (KPullEnd k) e2 /\ forall x, In x kids -> exists r, nth_error l x = Some (TAsk r QDone)));
  gr_known : forall k todo kids, nth_error l k = Some (TPull todo kids) -> exists e1 bl e2, ev = e1 ++ KPulled k bl :: e2;
  gr_parent : forall x r q, nth_error l x = Some (TAsk r q) -> q <> QDone -> exists k todo kids, nth_error l k = Some (TPull todo kids) /\ In x kids }.
Lemma snoc_split {A} (ev : list A) x e1 y e2 : ev ++ [x] = e1 ++ y :: e2 -> (e2 = [] /\ x = y /\ ev = e1) \/ exists e2', e2 = e2' ++ [x] /\ ev = e1 ++ y :: e2'.
Proof.
  intros H. destruct e2 as [|z e2] using rev_ind.
  - left. apply app_inj_tail in H as [-> ->]. auto.
  - right. clear IHe2. exists e2. change (y :: e2 ++ [z]) with ((y :: e2) ++ [z]) in H. rewrite app_assoc in H. apply app_inj_tail in H as [-> ->]. auto.
Qed.
Lemma more_split {A} (ev : list A) e e1 y e2 : (e = [] \/ exists x, e = [x]) -> ev ++ e = e1 ++ y :: e2 -> (e = [y] /\ e2 = [] /\ ev = e1) \/ exists e2', e2 = e2' ++ e /\ ev = e1 ++ y :: e2'.
Proof.
  intros [->|[x ->]] H.
  - right. exists e2. rewrite app_nil_r in *. auto.
  - apply snoc_split in H as [(-> & -> & ->)|H]; auto.
Qed.
Lemma errs_keep p K e errs x : In x errs -> In x (errs_after p K e errs).
Proof. intros I. unfold errs_after. destruct e as [|[] e]; auto; [apply in_or_app; auto|]. destruct o; auto. apply in_or_app; auto. Qed.
Lemma errs_mark p K x k todo kids r e errs : nth_error (k_threads K) k = Some (TPull todo kids) -> In x kids -> (e = [KRefused x r] \/ exists z, e = [KReturned x r (Some z)]) -> In (p, k) (errs_after p K e errs).
Proof.
  intros N I E. assert (In (p, k) (map (fun k => (p, k)) (filter (fun k => match nth_error (k_threads K) k with Some th => parent_has x th | None => false end) (seq 0 (List.length (k_threads K)))))) as G.
  { apply in_map, filter_In. split; [apply in_seq; cbn; split; [lia|]; apply nth_error_Some; congruence|]. rewrite N. cbn. apply existsb_exists. exists x. split; [exact I|apply Nat.eqb_refl]. }
  destruct E as [->|[z ->]]; cbn; apply in_or_app; right; exact G.
Qed.
Lemma forall2_in_l {A B} (R : A -> B -> Prop) l l' x : Forall2 R l l' -> In x l -> exists y, In y l' /\ R x y.
Proof. induction 1 as [|a b l l' H F IH]; intros []; [subst; exists b; cbn; auto|]. destruct (IH H0) as (y & I & Q). exists y. cbn. auto. Qed.
Lemma forall2_in_r {A B} (R : A -> B -> Prop) l l' y : Forall2 R l l' -> In y l' -> exists x, In x l /\ R x y.
Proof. induction 1 as [|a b l l' H F IH]; intros []; [subst; exists a; cbn; auto|]. destruct (IH H0) as (x & I & Q). exists x. cbn. auto. Qed.
Lemma forall2_mono {A B} (R S : A -> B -> Prop) l l' : Forall2 R l l' -> (forall x y, In x l -> R x y -> S x y) -> Forall2 S l l'.
Proof. induction 1; intros H1; constructor; [apply H1; [now left|assumption]|apply IHForall2; intros; apply H1; [now right|assumption]]. Qed.
Lemma group_step p K ev errs a K' e : base_ok K -> (forall t, call_ok t K ev) -> group p (k_threads K) ev errs -> kexec K a = Some (K', e) ->
  group p (k_threads K') (ev ++ e) (errs_after p K e errs).
Proof.
  intros B CO [G1 G2 G3] H. pose proof (step_events _ _ _ _ H) as SE. pose proof (kmove _ _ _ _ B H) as M.
  assert (forall k, (List.length (k_threads K) <= k)%nat -> forall bl, ~ In (KPulled k bl) ev) as Old.
  { intros k L bl I. apply in_split in I as (e1 & e2 & E). destruct (G1 _ _ _ _ E) as (kids & rs & todo & _ & _ & X).
    assert (nth_error (k_threads K) k <> None) as N by (destruct X as [X|(X & _)]; congruence). apply nth_error_Some in N. lia. }
  assert (forall x th, nth_error (k_threads K) x = Some th -> (x < List.length (k_threads K))%nat) as Lt by (intros x th X; apply nth_error_Some; congruence).
  inversion M as [t x y e0 N Ox On Oy Q1 Q2 T1 E1|t r q q' e0 N Nd Q T1 E1|t r todo kids N T1 E1|t kids N Q T1 E1|bl T1 E1|x Ox T1 E1]; subst e0 || subst e; try rewrite <- T1.
  - (* another goroutine *)
    assert (forall x0 r q, nth_error (k_threads K) x0 = Some (TAsk r q) <-> nth_error (list_set t y (k_threads K)) x0 = Some (TAsk r q)) as Asks.
    { intros x0 r q. destruct (Nat.eq_dec x0 t) as [->|D]; [rewrite list_set_nth_eq by eauto; split; intros E; rewrite ?N in E; injection E as ->; discriminate|now rewrite list_set_nth_neq by congruence]. }
    assert (forall x0 td kd, nth_error (k_threads K) x0 = Some (TPull td kd) <-> nth_error (list_set t y (k_threads K)) x0 = Some (TPull td kd)) as Pulls.
    { intros x0 r q. destruct (Nat.eq_dec x0 t) as [->|D]; [rewrite list_set_nth_eq by eauto; split; intros E; rewrite ?N in E; injection E as ->; discriminate|now rewrite list_set_nth_neq by congruence]. }
    constructor.
    + intros e1 k bl e2 E. apply more_split in E as [(-> & _)|(e2' & -> & E)]; [discriminate Q1| |exact SE]. destruct (G1 _ _ _ _ E) as (kids & rs & todo & X1 & X2 & X3).
      exists kids, rs, todo. split; [exact X1|]. split.
      * eapply forall2_mono; [exact X2|]. intros z r _ (Y1 & q & Y2 & Y3). split; [exact Y1|]. exists q. split; [now apply Asks|]. intros Dq. destruct (Y3 Dq); [left; now apply errs_keep|right; apply in_or_app; auto].
      * destruct X3 as [X3|(X3 & X4 & X5 & X6)]; [left; now apply Pulls|]. right. split.
        -- rewrite list_set_nth_neq; [exact X3|]. intros ->. congruence.
        -- repeat split; [assumption|apply in_or_app; auto|]. intros z I. destruct (X6 _ I) as [r Z]. exists r. now apply Asks.
    + intros k todo kids E. apply Pulls in E. destruct (G2 _ _ _ E) as (e1 & bl & e2 & ->). exists e1, bl, (e2 ++ e). now rewrite <- app_assoc.
    + intros x0 r q E Nq. apply Asks in E. destruct (G3 _ _ _ E Nq) as (k & td & kd & Z1 & Z2). exists k, td, kd. split; [now apply Pulls|exact Z2].
  - (* a requestBlock *)
    assert (forall x0 th, x0 <> t -> nth_error (list_set t (TAsk r q') (k_threads K)) x0 = Some th <-> nth_error (k_threads K) x0 = Some th) as Oth by (intros; now rewrite list_set_nth_neq by congruence).
    assert (nth_error (list_set t (TAsk r q') (k_threads K)) t = Some (TAsk r q')) as New by (apply list_set_nth_eq; eauto).
    assert (forall k bl, ~ In (KPulled k bl) e) as NP by (intros k bl I; destruct Q as [[_ Q]|[_ [->|[o ->]]]]; [assert (of_pull (KPulled k bl) = false) by (now apply (proj1 (tally_0 _ _) Q)); discriminate|destruct I as [I|[]]; discriminate..]).
    constructor.
    + intros e1 k bl e2 E. apply more_split in E as [(-> & _)|(e2' & -> & E)]; [destruct (NP k bl); now left| |exact SE]. destruct (G1 _ _ _ _ E) as (kids & rs & todo & X1 & X2 & X3).
      exists kids, rs, todo. split; [exact X1|]. split.
      * eapply forall2_mono; [exact X2|]. intros z r0 Iz (Y1 & q0 & Y2 & Y3). split; [exact Y1|]. destruct (Nat.eq_dec z t) as [->|D].
        -- assert (r0 = r /\ q0 = q) as [-> ->] by (rewrite N in Y2; injection Y2; auto). exists q'. split; [exact New|]. intros Dq. destruct Q as [[Nq _]|[_ Q]]; [contradiction|].
           destruct X3 as [X3|(_ & _ & _ & X6)].
           ++ destruct Q as [->|[[z|] ->]]; [left; eapply errs_mark; eauto..|right; apply in_or_app; right; now left].
           ++ destruct (X6 _ Iz) as [r1 Z]. rewrite N in Z. injection Z as _ ->. contradiction.
        -- exists q0. split; [now apply Oth|]. intros Dq. destruct (Y3 Dq); [left; now apply errs_keep|right; apply in_or_app; auto].
      * destruct X3 as [X3|(X3 & X4 & X5 & X6)]; [left; apply Oth; [congruence|exact X3]|]. right. split; [apply Oth; [congruence|exact X3]|]. repeat split; [assumption|apply in_or_app; auto|].
        intros z I. destruct (X6 _ I) as [r1 Z]. exists r1. apply Oth; [|exact Z]. intros ->. rewrite N in Z. injection Z as _ ->. contradiction.
    + intros k todo kids E. assert (k <> t) as D by (intros ->; congruence). apply Oth in E; [|exact D]. destruct (G2 _ _ _ E) as (e1 & bl & e2 & ->). exists e1, bl, (e2 ++ e). now rewrite <- app_assoc.
    + intros x0 r0 q0 E Nq. destruct (Nat.eq_dec x0 t) as [->|D].
      * destruct (G3 _ _ _ N Nd) as (k & td & kd & Z1 & Z2). exists k, td, kd. split; [apply Oth; [congruence|exact Z1]|exact Z2].
      * apply Oth in E; [|exact D]. destruct (G3 _ _ _ E Nq) as (k & td & kd & Z1 & Z2). exists k, td, kd. split; [apply Oth; [congruence|exact Z1]|exact Z2].
  - (* eg.Go *)
    set (n := List.length (k_threads K)) in *. cbn [errs_after]. rewrite app_nil_r.
    assert (forall x0 th, x0 <> t -> nth_error (k_threads K) x0 = Some th -> nth_error (list_set t (TPull todo (kids ++ [n])) (k_threads K) ++ [TAsk r QFirst]) x0 = Some th) as Oth.
    { intros x0 th D E. rewrite nth_error_app1 by (rewrite list_set_length; eauto). now rewrite list_set_nth_neq by congruence. }
    assert (nth_error (list_set t (TPull todo (kids ++ [n])) (k_threads K) ++ [TAsk r QFirst]) t = Some (TPull todo (kids ++ [n]))) as New by (rewrite nth_error_app1 by (rewrite list_set_length; eauto); apply list_set_nth_eq; eauto).
    assert (nth_error (list_set t (TPull todo (kids ++ [n])) (k_threads K) ++ [TAsk r QFirst]) n = Some (TAsk r QFirst)) as Kid by (rewrite nth_error_app2 by (rewrite list_set_length; unfold n; lia); rewrite list_set_length; unfold n; now rewrite Nat.sub_diag).
    assert (forall x0 th, nth_error (list_set t (TPull todo (kids ++ [n])) (k_threads K) ++ [TAsk r QFirst]) x0 = Some th -> (x0 = t /\ th = TPull todo (kids ++ [n])) \/ (x0 = n /\ th = TAsk r QFirst) \/ (x0 <> t /\ nth_error (k_threads K) x0 = Some th)) as Inv.
    { intros x0 th E. apply threads_app in E as [[-> ->]|E]; [rewrite list_set_length in *; auto|]. apply threads_set in E as [(-> & -> & _)|E]; auto. }
    constructor.
    + intros e1 k bl e2 E. destruct (G1 _ _ _ _ E) as (ks & rs & td & X1 & X2 & X3). destruct (Nat.eq_dec k t) as [->|D].
      * destruct X3 as [X3|(X3 & _)]; [|congruence]. rewrite N in X3. injection X3 as <- <-. exists (kids ++ [n]), (rs ++ [r]), todo. split; [now rewrite <- app_assoc|]. split; [|now left].
        apply Forall2_app; [|constructor; [|constructor]].
        -- eapply forall2_mono; [exact X2|]. intros z r0 _ (Y1 & q0 & Y2 & Y3). split; [exact Y1|]. exists q0. split; [|exact Y3]. apply Oth; [congruence|exact Y2].
        -- split; [|exists QFirst; split; [exact Kid|discriminate]]. pose proof (CO n) as Cn. unfold call_ok in Cn. assert (nth_error (k_threads K) n = None) as Nn by (apply nth_error_None; unfold n; lia). rewrite Nn in Cn.
           injection Cn as Cn _ _. rewrite E, tally_app in Cn. pose proof (tally_ge0 (ev_pending n) e1). pose proof (tally_ge0 (ev_pending n) (KPulled t (rs ++ r :: todo) :: e2)). subst bl. lia.
      * exists ks, rs, td. split; [exact X1|]. split.
        -- eapply forall2_mono; [exact X2|]. intros z r0 _ (Y1 & q0 & Y2 & Y3). split; [exact Y1|]. exists q0. split; [|exact Y3]. apply Oth; [congruence|exact Y2].
        -- destruct X3 as [X3|(X3 & X4 & X5 & X6)]; [left; now apply Oth|]. right. split; [now apply Oth|]. repeat split; [assumption..|]. intros z I. destruct (X6 _ I) as [r1 Z]. exists r1. apply Oth; [congruence|exact Z].
    + intros k td ks E. apply Inv in E as [(-> & _)|[(_ & E)|(D & E)]]; [eapply G2; exact N|discriminate|eapply G2; exact E].
    + intros x0 r0 q0 E Nq. apply Inv in E as [(-> & E)|[(-> & E)|(D & E)]]; [discriminate| |].
      * exists t, todo, (kids ++ [n]). split; [exact New|apply in_or_app; right; now left].
      * destruct (G3 _ _ _ E Nq) as (k & td & kd & Z1 & Z2). destruct (Nat.eq_dec k t) as [->|Dk].
        -- rewrite N in Z1. injection Z1 as <- <-. exists t, todo, (kids ++ [n]). split; [exact New|apply in_or_app; now left].
        -- exists k, td, kd. split; [now apply Oth|exact Z2].
  - (* eg.Wait *)
    cbn [errs_after].
    assert (forall x0 th, x0 <> t -> nth_error (list_set t TOver (k_threads K)) x0 = Some th <-> nth_error (k_threads K) x0 = Some th) as Oth by (intros; now rewrite list_set_nth_neq by congruence).
    assert (nth_error (list_set t TOver (k_threads K)) t = Some TOver) as New by (apply list_set_nth_eq; eauto).
    constructor.
    + intros e1 k bl e2 E. apply more_split in E as [(E & _)|(e2' & -> & E)]; [discriminate E| |right; eauto]. destruct (G1 _ _ _ _ E) as (ks & rs & td & X1 & X2 & X3).
      exists ks, rs, td. split; [exact X1|]. split.
      * eapply forall2_mono; [exact X2|]. intros z r0 _ (Y1 & q0 & Y2 & Y3). split; [exact Y1|]. exists q0. split; [apply Oth; [congruence|exact Y2]|]. intros Dq. destruct (Y3 Dq); [now left|right; apply in_or_app; auto].
      * destruct (Nat.eq_dec k t) as [->|D].
        -- destruct X3 as [X3|(X3 & _)]; [|congruence]. rewrite N in X3. injection X3 as <- <-. right. split; [exact New|]. split; [reflexivity|]. split; [apply in_or_app; right; now left|].
           intros z Iz. destruct (forall2_in_l _ _ _ _ X2 Iz) as (r0 & _ & _ & q0 & Z & _). destruct (Q _ _ Iz Z) as [r1 [= -> ->]]. exists r1. apply Oth; [congruence|exact Z].
        -- destruct X3 as [X3|(X3 & X4 & X5 & X6)]; [left; now apply Oth|]. right. split; [now apply Oth|]. repeat split; [assumption|apply in_or_app; auto|]. intros z I. destruct (X6 _ I) as [r1 Z]. exists r1. apply Oth; [congruence|exact Z].
    + intros k td ks E. assert (k <> t) as D by (intros ->; congruence). apply Oth in E; [|exact D]. destruct (G2 _ _ _ E) as (e1 & bl & e2 & ->). exists e1, bl, (e2 ++ [KPullEnd t]). now rewrite <- app_assoc.
    + intros x0 r0 q0 E Nq. assert (x0 <> t) as D by (intros ->; congruence). apply Oth in E; [|exact D]. destruct (G3 _ _ _ E Nq) as (k & td & kd & Z1 & Z2). exists k, td, kd. split; [|exact Z2]. apply Oth; [|exact Z1].
      intros ->. rewrite N in Z1. injection Z1 as <- <-. destruct (Q _ _ Z2 E) as [r1 [= _ ->]]. contradiction.
  - (* requestPiece is called *)
    cbn [errs_after]. set (n := List.length (k_threads K)) in *.
    assert (forall x0 th, nth_error (k_threads K) x0 = Some th -> nth_error (k_threads K ++ [TPull bl []]) x0 = Some th) as Oth by (intros x0 th E; rewrite nth_error_app1 by eauto; exact E).
    assert (nth_error (k_threads K ++ [TPull bl []]) n = Some (TPull bl [])) as New by (rewrite nth_error_app2 by (unfold n; lia); unfold n; now rewrite Nat.sub_diag).
    constructor.
    + intros e1 k bl0 e2 E. apply more_split in E as [(E & -> & E2)|(e2' & -> & E)]; [| |right; eauto].
      * injection E as <- <-. exists [], [], bl. split; [reflexivity|]. split; [constructor|]. left. exact New.
      * destruct (G1 _ _ _ _ E) as (ks & rs & td & X1 & X2 & X3). exists ks, rs, td. split; [exact X1|]. split.
        -- eapply forall2_mono; [exact X2|]. intros z r0 _ (Y1 & q0 & Y2 & Y3). split; [exact Y1|]. exists q0. split; [now apply Oth|]. intros Dq. destruct (Y3 Dq); [now left|right; apply in_or_app; auto].
        -- destruct X3 as [X3|(X3 & X4 & X5 & X6)]; [left; now apply Oth|]. right. split; [now apply Oth|]. repeat split; [assumption|apply in_or_app; auto|]. intros z I. destruct (X6 _ I) as [r1 Z]. exists r1. now apply Oth.
    + intros k td ks E. apply threads_app in E as [[-> E]|E].
      * injection E as -> ->. exists ev, bl, []. reflexivity.
      * destruct (G2 _ _ _ E) as (e1 & bl0 & e2 & ->). exists e1, bl0, (e2 ++ [KPulled n bl]). now rewrite <- app_assoc.
    + intros x0 r0 q0 E Nq. apply threads_app in E as [[-> E]|E]; [discriminate|]. destruct (G3 _ _ _ E Nq) as (k & td & kd & Z1 & Z2). exists k, td, kd. split; [now apply Oth|exact Z2].
  - (* another call *)
    cbn [errs_after]. rewrite app_nil_r.
    assert (forall x0 th, nth_error (k_threads K) x0 = Some th -> nth_error (k_threads K ++ [x]) x0 = Some th) as Oth by (intros x0 th E; rewrite nth_error_app1 by eauto; exact E).
    constructor.
    + intros e1 k bl0 e2 E. destruct (G1 _ _ _ _ E) as (ks & rs & td & X1 & X2 & X3). exists ks, rs, td. split; [exact X1|]. split.
      * eapply forall2_mono; [exact X2|]. intros z r0 _ (Y1 & q0 & Y2 & Y3). split; [exact Y1|]. exists q0. split; [now apply Oth|exact Y3].
      * destruct X3 as [X3|(X3 & X4 & X5 & X6)]; [left; now apply Oth|]. right. split; [now apply Oth|]. repeat split; [assumption..|]. intros z I. destruct (X6 _ I) as [r1 Z]. exists r1. now apply Oth.
    + intros k td ks E. apply threads_app in E as [[-> E]|E]; [subst x; discriminate|]. eapply G2; exact E.
    + intros x0 r0 q0 E Nq. apply threads_app in E as [[-> E]|E]; [subst x; discriminate|]. destruct (G3 _ _ _ E Nq) as (k & td & kd & Z1 & Z2). exists k, td, kd. split; [now apply Oth|exact Z2].
Qed.
Lemma group_start p errs : group p (k_threads kstart) [] errs.
Proof. constructor; [intros [|] ? ? ?; discriminate|intros [|[|]] ? ?; discriminate|intros [|[|]] ? ? E; discriminate]. Qed.
Lemma group_errs p l ev errs errs' : (forall x, In x errs -> In x errs') -> group p l ev errs -> group p l ev errs'.
Proof.
  intros M [G1 G2 G3]. constructor; [|exact G2|exact G3]. intros e1 k bl e2 E. destruct (G1 _ _ _ _ E) as (kids & rs & todo & X1 & X2 & X3). exists kids, rs, todo. split; [exact X1|]. split; [|exact X3].
  eapply forall2_mono; [exact X2|]. intros z r _ (Y1 & q & Y2 & Y3). split; [exact Y1|]. exists q. split; [exact Y2|]. intros D. destruct (Y3 D); auto.
Qed.
(** eg.Wait has returned without an error: every block came. *)
Lemma pulled_done p l K ev errs e1 k bl e2 : krun_of l K ev -> group p (k_threads K) ev errs -> ev = e1 ++ KPulled k bl :: e2 -> nth_error (k_threads K) k = Some TOver -> ~ In (p, k) errs ->
  forall r, In r bl -> exists m, In (KRecv m) e2 /\ is_type PIECE m = true /\ carried m = r.
Proof.
  intros R [G1 _ _] E O N r I. destruct (G1 _ _ _ _ E) as (kids & rs & todo & X1 & X2 & X3). destruct X3 as [X3|(_ & -> & _ & X4)]; [congruence|]. rewrite app_nil_r in X1. subst bl.
  destruct (forall2_in_r _ _ _ _ X2 I) as (x & Ix & Y1 & q & Y2 & Y3). destruct (X4 _ Ix) as [r' Z]. assert (q = QDone) as -> by congruence. destruct (Y3 eq_refl) as [Y|Y]; [contradiction|].
  apply in_split in Y as (a & b & E2). assert (krun_of l K (a ++ KReturned x r None :: b)) as R2 by (rewrite <- E2; exact R). destruct (returned_outcome _ _ _ _ _ _ _ R2) as (e1' & e2' & Ea & Oc). cbn in Oc. subst a.
  assert (exists z, e1' = e1 ++ KPulled k rs :: z) as [z Ez].
  { rewrite E in E2. clear - E2 Y1. revert E2. rewrite <- app_assoc. cbn [app]. intros E2. revert e1' E2. induction e1 as [|y e1 IH]; intros [|y' e1'] E2; cbn in E2.
    - discriminate E2.
    - injection E2 as <- _. now exists e1'.
    - exfalso. injection E2 as -> _. unfold tally in Y1. cbn in Y1. rewrite Nat.eqb_refl, zlen_cons in Y1. pose proof (zlen_nonneg (filter (ev_pending x) e1)). lia.
    - injection E2 as -> E2. apply IH in E2 as [z ->]; [now exists z|]. unfold tally in *. cbn in Y1. destruct (ev_pending x y'); [|exact Y1]. rewrite zlen_cons in Y1. pose proof (zlen_nonneg (filter (ev_pending x) e1)). lia. }
  subst e1'. rewrite E in E2. rewrite <- !app_assoc in E2. cbn [app] in E2. apply app_inv_head in E2. injection E2 as E2. subst e2. clear - Oc.
  assert (exists m, In (KRecv m) e2' /\ is_type PIECE m = true /\ carried m = r) as (m & I & T & Cm).
  { induction e2' as [|y e2' IH]; [discriminate|]. cbn [first_answer] in Oc. destruct y; try (destruct (IH Oc) as (m' & I' & X); exists m'; split; [now right|exact X]; fail).
    destruct (is_type PIECE m && same (carried m) r) eqn:B.
    - apply andb_true_iff in B as [B1 B2]. exists m. split; [now left|]. split; [exact B1|]. unfold same in B2. destruct (carried m) as [[a1 b1] c1], r as [[a2 b2] c2]. apply andb_true_iff in B2 as [B2 B3]. apply andb_true_iff in B2 as [B2 B4]. apply Z.eqb_eq in B2, B3, B4. congruence.
    - destruct (is_type CHOKE m); [discriminate Oc|]. destruct (IH Oc) as (m' & I' & X). exists m'. split; [now right|exact X]. }
  exists m. split; [|auto]. apply in_or_app. right. right. apply in_or_app. now left.
Qed.
Lemma go_no_pull K k ch K' e : kexec K (KGo k ch) = Some (K', e) -> forall t bl, ~ In (KPulled t bl) e.
Proof. intros H t bl I. kopen H; cbn in I; repeat match type of I with _ \/ _ => destruct I as [I|I] end; try discriminate I; contradiction. Qed.
(** Calls of requestPiece do not come from nothing. *)
Lemma pulls_old K k ch K' e x td kd : base_ok K -> kexec K (KGo k ch) = Some (K', e) -> nth_error (k_threads K') x = Some (TPull td kd) -> exists td0 kd0, nth_error (k_threads K) x = Some (TPull td0 kd0).
Proof.
  intros B H N. pose proof (kmove _ _ _ _ B H) as M.
  inversion M as [t x0 y e0 T Ox On Oy Q1 Q2 T1 E1|t r q q' e0 T Nd Q T1 E1|t r todo kids T T1 E1|t kids T Q T1 E1|bl T1 E1|x0 Ox T1 E1]; subst; rewrite <- T1 in N.
  - apply threads_set in N as [(_ & <- & _)|[_ N]]; [discriminate Oy|eauto].
  - apply threads_set in N as [(_ & N & _)|[_ N]]; [discriminate N|eauto].
  - apply threads_app in N as [[_ N]|N]; [discriminate N|]. apply threads_set in N as [(-> & N & _)|[_ N]]; eauto.
  - apply threads_set in N as [(_ & N & _)|[_ N]]; [discriminate N|eauto].
  - destruct (go_no_pull _ _ _ _ _ H (List.length (k_threads K)) bl). now left.
  - apply threads_app in N as [[_ N]|N]; [subst; discriminate|eauto].
Qed.
