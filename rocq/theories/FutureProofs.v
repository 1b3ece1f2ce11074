From Verif Require Import GoBase GoBaseProofs Future.
Section P.
Variable A : Type.
Notation fstate := (fstate A).

Definition at_ (s : fstate) (t : nat) (c : fcall A) (p : fpc A) : Prop := nth_error (fs_threads s) t = Some (c, p).
(** The state a thread can be in. *)
Definition thr_ok (c : fcall A) (p : fpc A) : Prop :=
  match c, p with
  | FDeliver _, FReceived | FDeliver _, FReturned (Some _) | FWait, FStored | FWait, FReturned None | FWait, FPanicked => False
  | _, _ => True
  end.
Definition stored (p : fpc A) : Prop := match p with FStart => False | _ => True end.
Definition finv (s : fstate) : Prop :=
  (forall t c p, at_ s t c p -> thr_ok c p) /\
  (forall t u v w, at_ s t (FDeliver v) (FReturned None) -> at_ s u (FDeliver w) (FReturned None) -> t = u) /\
  (fu_done (fs_future s) = true <-> exists t v, at_ s t (FDeliver v) (FReturned None)) /\
  (fu_done (fs_future s) = false -> forall t c p, at_ s t c p -> p <> FReceived /\ (forall x, p <> FReturned (Some x)) /\ p <> FPanicked) /\
  ((exists t v p, at_ s t (FDeliver v) p /\ stored p) -> exists t v p, at_ s t (FDeliver v) p /\ stored p /\ fu_value (fs_future s) = v) /\
  (forall t x, at_ s t FWait (FReturned (Some x)) -> exists u v p, at_ s u (FDeliver v) p /\ stored p /\ x = v).

Lemma at_step (l : list (fcall A * fpc A)) t x y u z : nth_error l t = Some x -> (nth_error (list_set t y l) u = Some z <-> (u = t /\ z = y) \/ (u <> t /\ nth_error l u = Some z)).
Proof.
  intros H. destruct (Nat.eq_dec u t) as [->|N].
  - rewrite list_set_nth_eq by (apply nth_error_Some; congruence). split; [intros [= <-]; auto|]. intros [[_ ->]|[Q _]]; [reflexivity|congruence].
  - rewrite list_set_nth_neq by congruence. split; [auto|]. intros [[Q _]|[_ Q]]; [congruence|exact Q].
Qed.
Lemma fresh_inv zero cs : finv (fresh zero cs).
Proof.
  assert (S : forall t c p, at_ (fresh zero cs) t c p -> p = FStart).
  { intros t c p H. unfold at_, fresh in H. cbn in H. rewrite nth_error_map in H. destruct (nth_error cs t); cbn in H; congruence. }
  split; [intros t c p H; rewrite (S _ _ _ H); destruct c; exact I|]. split; [intros t u v w H; now apply S in H|].
  split; [cbn; split; [discriminate|intros (t & v & H); now apply S in H]|].
  split; [intros _ t c p H; rewrite (S _ _ _ H); split; [discriminate|]; split; [intros ?; discriminate|discriminate]|].
  split; [intros (t & v & p & H & Q); rewrite (S _ _ _ H) in Q; destruct Q|]. intros t x H. now apply S in H.
Qed.
Lemma step_inv s t s' : finv s -> fstep s t = Some s' -> finv s'.
Proof.
  intros (H1 & H2 & H3 & H4 & H5 & H6) E. unfold fstep in E. destruct (nth_error (fs_threads s) t) as [[c p]|] eqn:Ht; [|discriminate].
  destruct (fnext (fs_future s) c p) as [[u p']|] eqn:N; [|discriminate]. injection E as <-.
  assert (AT : forall q c' p2, at_ {| fs_future := u; fs_threads := list_set t (c, p') (fs_threads s) |} q c' p2 <-> (q = t /\ c' = c /\ p2 = p') \/ (q <> t /\ at_ s q c' p2)).
  { intros q c' p2. unfold at_. cbn [fs_threads]. rewrite (at_step _ _ _ _ _ _ Ht). split; (intros [[-> Q]|Q]; [left|right; exact Q]).
    - injection Q as -> ->. auto.
    - destruct Q as [-> ->]. auto. }
  assert (ST : stored p') by (destruct c, p; cbn in N; try discriminate; try (destruct (fu_done (fs_future s)); try discriminate); injection N as <- <-; exact I).
  assert (STAY : forall q c0 p0, at_ s q c0 p0 -> stored p0 -> exists p2, at_ {| fs_future := u; fs_threads := list_set t (c, p') (fs_threads s) |} q c0 p2 /\ stored p2).
  { intros q c0 p0 Q S. destruct (Nat.eq_dec q t) as [->|Nq]; [|exists p0; split; [apply AT; auto|exact S]].
    unfold at_ in Q. rewrite Ht in Q. injection Q as -> ->. exists p'. split; [apply AT; auto|exact ST]. }
  assert (OTH : forall q c0 p0, at_ s q c0 p0 -> p0 <> p -> at_ {| fs_future := u; fs_threads := list_set t (c, p') (fs_threads s) |} q c0 p0).
  { intros q c0 p0 Q Np. apply AT. right. split; [|exact Q]. intros ->. unfold at_ in Q. congruence. }
  pose proof (H1 _ _ _ Ht) as TO.
  assert (I6 : forall q x, at_ {| fs_future := u; fs_threads := list_set t (c, p') (fs_threads s) |} q FWait (FReturned (Some x)) ->
            (c = FWait -> p' = FReturned (Some x) -> fu_done (fs_future s) = true /\ x = fu_value (fs_future s)) ->
            exists a v p2, at_ {| fs_future := u; fs_threads := list_set t (c, p') (fs_threads s) |} a (FDeliver v) p2 /\ stored p2 /\ x = v).
  { intros q x Q G. apply AT in Q as [(_ & Ec & Ep)|(_ & Q)].
    - destruct (G (eq_sym Ec) (eq_sym Ep)) as [Dn ->]. apply H3 in Dn as (a & v & Q). destruct H5 as (a' & v' & p2 & Q' & S & ->); [exists a, v, (FReturned None); split; [exact Q|exact I]|].
      destruct (STAY _ _ _ Q' S) as (p3 & Q3 & S3). eauto 6.
    - destruct (H6 _ _ Q) as (a & v & p2 & Q' & S & ->). destruct (STAY _ _ _ Q' S) as (p3 & Q3 & S3). eauto 6. }
  assert (I5 : u = fs_future s \/ fu_value u = fu_value (fs_future s) /\ (exists v, c = FDeliver v) ->  (exists t0 v p0, at_ {| fs_future := u; fs_threads := list_set t (c, p') (fs_threads s) |} t0 (FDeliver v) p0 /\ stored p0) -> p <> FStart \/ c = FWait ->
           exists t0 v p0, at_ {| fs_future := u; fs_threads := list_set t (c, p') (fs_threads s) |} t0 (FDeliver v) p0 /\ stored p0 /\ fu_value u = v).
  { intros U (q & v & p0 & Q & S) Np. assert (V : fu_value u = fu_value (fs_future s)) by (destruct U as [->|[U _]]; auto).
    destruct H5 as (a' & v' & p2 & Q' & S' & E').
    - apply AT in Q as [(-> & Ec & _)|(_ & Q)]; [|eauto]. exists t, v, p. split; [unfold at_; congruence|]. destruct p; try exact I. destruct Np as [Np|Np]; congruence.
    - destruct (STAY _ _ _ Q' S') as (p3 & Q3 & S3). exists a', v', p3. rewrite V. auto. }
  destruct c as [v|]; destruct p; cbn in N; try discriminate.
  - (* store *) injection N as <- <-. unfold finv. cbn [fs_future fu_done fu_value]. split; [|split; [|split; [split|split; [|split]]]].
    + intros q c p Q. apply AT in Q as [(-> & -> & ->)|(_ & Q)]; [exact I|now apply (H1 q)].
    + intros a b x y Qa Qb. apply AT in Qa as [(_ & _ & Q)|(_ & Qa)]; [discriminate|]. apply AT in Qb as [(_ & _ & Q)|(_ & Qb)]; [discriminate|]. eauto.
    + intros Q. apply H3 in Q as (q & x & Q). exists q, x. apply OTH; [exact Q|discriminate].
    + intros (q & x & Q). apply AT in Q as [(_ & _ & Q)|(_ & Q)]; [discriminate|]. apply H3. eauto.
    + intros Dn q c p Q. apply AT in Q as [(-> & -> & ->)|(_ & Q)]; [split; [discriminate|split; [intros ?; discriminate|discriminate]]|]. now apply (H4 Dn q c).
    + intros _. exists t, v, FStored. split; [apply AT; auto|]. split; [exact I|reflexivity].
    + intros q x Q. apply (I6 q x Q). discriminate.
  - destruct (fu_done (fs_future s)) eqn:Dn; injection N as <- <-; unfold finv; cbn [fs_future fu_done fu_value]; (split; [|split; [|split; [split|split; [|split]]]]).
    + intros q c p Q. apply AT in Q as [(-> & -> & ->)|(_ & Q)]; [exact I|now apply (H1 q)].
    + intros a b x y Qa Qb. apply AT in Qa as [(_ & _ & Q)|(_ & Qa)]; [discriminate|]. apply AT in Qb as [(_ & _ & Q)|(_ & Qb)]; [discriminate|]. eauto.
    + intros _. destruct (proj1 H3 eq_refl) as (q & x & Q). exists q, x. apply OTH; [exact Q|discriminate].
    + intros _. exact Dn.
    + intros Q. congruence.
    + intros Q. apply I5; [now left|exact Q|left; discriminate].
    + intros q x Q. apply (I6 q x Q). discriminate.
    + intros q c p Q. apply AT in Q as [(-> & -> & ->)|(_ & Q)]; [exact I|now apply (H1 q)].
    + assert (NO : forall a x, at_ s a (FDeliver x) (FReturned None) -> False) by (intros a x Q; enough (false = true) by discriminate; apply H3; eauto).
      intros a b x y Qa Qb. apply AT in Qa as [(-> & _ & _)|(_ & Qa)]; [|destruct (NO _ _ Qa)]. apply AT in Qb as [(-> & _)|(_ & Qb)]; [reflexivity|destruct (NO _ _ Qb)].
    + intros _. exists t, v. apply AT. auto.
    + reflexivity.
    + discriminate.
    + intros Q. apply I5; [right; split; [reflexivity|eauto]|exact Q|left; discriminate].
    + intros q x Q. apply (I6 q x Q). discriminate.
  - destruct (fu_done (fs_future s)) eqn:Dn; [|discriminate]; injection N as <- <-. unfold finv; cbn [fs_future fu_done fu_value]; (split; [|split; [|split; [split|split; [|split]]]]).
    + intros q c p Q. apply AT in Q as [(-> & -> & ->)|(_ & Q)]; [exact I|now apply (H1 q)].
    + intros a b x y Qa Qb. apply AT in Qa as [(_ & _ & Q)|(_ & Qa)]; [discriminate|]. apply AT in Qb as [(_ & _ & Q)|(_ & Qb)]; [discriminate|]. eauto.
    + intros _. destruct (proj1 H3 eq_refl) as (q & x & Q). exists q, x. apply OTH; [exact Q|discriminate].
    + intros _. exact Dn.
    + intros Q. congruence.
    + intros Q. apply I5; [now left|exact Q|now right].
    + intros q x Q. apply (I6 q x Q). discriminate.
  - injection N as <- <-. assert (Dn : fu_done (fs_future s) = true).
    { destruct (fu_done (fs_future s)) eqn:Dn; [reflexivity|]. destruct (H4 eq_refl _ _ _ Ht) as [Q _]. congruence. }
    unfold finv; cbn [fs_future fu_done fu_value]; (split; [|split; [|split; [split|split; [|split]]]]).
    + intros q c p Q. apply AT in Q as [(-> & -> & ->)|(_ & Q)]; [exact I|now apply (H1 q)].
    + intros a b x y Qa Qb. apply AT in Qa as [(_ & _ & Q)|(_ & Qa)]; [discriminate|]. apply AT in Qb as [(_ & _ & Q)|(_ & Qb)]; [discriminate|]. eauto.
    + intros _. destruct (proj1 H3 Dn) as (q & x & Q). exists q, x. apply OTH; [exact Q|discriminate].
    + intros _. exact Dn.
    + intros Q. congruence.
    + intros Q. apply I5; [now left|exact Q|now right].
    + intros q x Q. apply (I6 q x Q). intros _ [= <-]. auto.
Qed.
Lemma runs_inv (s : fstate) sched s' : finv s -> fruns s sched = Some s' -> finv s' /\ map fst (fs_threads s') = map fst (fs_threads s).
Proof.
  revert s. induction sched as [|t sched IH]; intros s H E; cbn in E; [injection E as <-; auto|]. destruct (fstep s t) as [s1|] eqn:E1; [|discriminate].
  destruct (IH s1) as [I1 M1]; [eapply step_inv; eauto|exact E|]. split; [exact I1|]. rewrite M1. clear -E1.
  unfold fstep in E1. destruct (nth_error (fs_threads s) t) as [[c p]|] eqn:Ht; [|discriminate]. destruct (fnext _ c p) as [[u p']|]; [|discriminate]. injection E1 as <-. cbn [fs_threads].
  revert Ht. generalize (fs_threads s) as l. clear. induction t as [|t IH]; intros [|x l] H; cbn in *; try discriminate; [injection H as ->; reflexivity|]. f_equal. now apply IH.
Qed.

Definition is_deliver (c : fcall A) : bool := match c with FDeliver _ => true | FWait => false end.
(** For any calls: Wait returns after a Deliver has returned; one Deliver returns, the others panic. *)
Lemma futures_any (zero : A) cs sched s : fruns (fresh zero cs) sched = Some s ->
  (forall t x, nth_error (fs_threads s) t = Some (FWait, FReturned x) -> exists u v, nth_error (fs_threads s) u = Some (FDeliver v, FReturned None)) /\
  (forall t x, nth_error (fs_threads s) t = Some (FWait, FReturned x) -> exists v, x = Some v /\ In (FDeliver v) cs) /\
  (forall t u v w, nth_error (fs_threads s) t = Some (FDeliver v, FReturned None) -> nth_error (fs_threads s) u = Some (FDeliver w, FReturned None) -> t = u) /\
  (forall t v p, nth_error (fs_threads s) t = Some (FDeliver v, p) -> fstep s t = None -> p = FReturned None \/ p = FPanicked) /\
  (forall t p, nth_error (fs_threads s) t = Some (FWait, p) -> (fstep s t = None <-> (p = FStart /\ forall u v, nth_error (fs_threads s) u <> Some (FDeliver v, FReturned None)) \/ exists x, p = FReturned x)).
Proof.
  intros E. destruct (runs_inv _ _ _ (fresh_inv zero cs) E) as [(H1 & H2 & H3 & H4 & H5 & H6) M]. cbn [fresh fs_threads] in M. rewrite map_map, map_id in M.
  split; [|split; [|split; [exact H2|split]]].
  - intros t x H. apply H3. destruct (fu_done (fs_future s)) eqn:Dn; [reflexivity|]. destruct (H4 eq_refl _ _ _ H) as (_ & Q & _). destruct x as [x|]; [now destruct (Q x)|destruct (H1 _ _ _ H)].
  - intros t x H. destruct x as [x|]; [|destruct (H1 _ _ _ H)]. destruct (H6 _ _ H) as (u & v & p & Q & _ & ->). exists v. split; [reflexivity|].
    rewrite <- M. apply in_map_iff. exists (FDeliver v, p). split; [reflexivity|]. eapply nth_error_In. exact Q.
  - intros t v p H F. pose proof (H1 _ _ _ H) as TO. unfold fstep in F. rewrite H in F. destruct p as [| | |[r|]|]; cbn in *; auto; try contradiction; try discriminate.
    destruct (fu_done (fs_future s)); discriminate.
  - intros t p H. pose proof (H1 _ _ _ H) as TO. unfold fstep. rewrite H. destruct p as [| | |r|]; cbn in *; try contradiction.
    + destruct (fu_done (fs_future s)) eqn:Dn.
      * split; [discriminate|]. destruct (proj1 H3 eq_refl) as (u & v & Q). intros [[_ N]|[x Q']]; [|discriminate]. now apply N in Q.
      * split; [|reflexivity]. intros _. left. split; [reflexivity|]. intros u v Q. enough (false = true) by discriminate. apply H3. exists u, v. exact Q.
    + split; [discriminate|]. intros [[Q _]|[x Q]]; discriminate.
    + split; [|reflexivity]. intros _. right. eauto.
Qed.
(** One Deliver: every waiter gets its value. *)
Lemma futures_one (zero : A) cs sched s v : fruns (fresh zero cs) sched = Some s -> filter is_deliver cs = [FDeliver v] ->
  (forall t x, nth_error (fs_threads s) t = Some (FWait, FReturned x) -> x = Some v) /\
  (forall t c, nth_error (fs_threads s) t <> Some (c, FPanicked)).
Proof.
  intros E F. pose proof (futures_any _ _ _ _ E) as (_ & W & _). 
  assert (ONE : forall w, In (FDeliver w) cs -> w = v). { intros w H. assert (In (FDeliver w) (filter is_deliver cs)) by (apply filter_In; auto). rewrite F in *. destruct H0 as [[= ->]|[]]. reflexivity. }
  split.
  - intros t x H. destruct (W _ _ H) as (w & -> & Q). now rewrite (ONE _ Q).
  - destruct (runs_inv _ _ _ (fresh_inv zero cs) E) as [(H1 & H2 & H3 & H4 & H5 & H6) M]. cbn [fresh fs_threads] in M. rewrite map_map, map_id in M.
    intros t c H. destruct c as [w|]; [|destruct (H1 _ _ _ H)].
    assert (Dn : fu_done (fs_future s) = true) by (destruct (fu_done (fs_future s)) eqn:Dn; [reflexivity|]; destruct (H4 eq_refl _ _ _ H) as (_ & _ & Q); congruence).
    apply H3 in Dn as (u & y & Q). unfold at_ in Q. assert (u <> t) by congruence.
    assert (A1 : nth_error cs t = Some (FDeliver w)) by (rewrite <- M; exact (map_nth_error fst _ _ H)).
    assert (A2 : nth_error cs u = Some (FDeliver y)) by (rewrite <- M; exact (map_nth_error fst _ _ Q)).
    clear -F A1 A2 H0. revert t u A1 A2 H0 F. induction cs as [|c cs IH]; intros t u A1 A2 N F; [destruct t; discriminate|].
    assert (G : forall t w, nth_error cs t = Some (FDeliver w) -> filter is_deliver cs <> []).
    { intros t' w' Q Z. apply nth_error_In in Q. assert (In (FDeliver w') (filter is_deliver cs)) by (apply filter_In; auto). rewrite Z in *. contradiction. }
    destruct t as [|t], u as [|u]; cbn in A1, A2; try congruence.
    + injection A1 as ->. cbn in F. injection F as _ F. now apply G in A2.
    + injection A2 as ->. cbn in F. injection F as _ F. now apply G in A1.
    + destruct c; cbn in F; [injection F as _ F; now apply G in A1|]. apply (IH t u); auto.
Qed.
End P.
