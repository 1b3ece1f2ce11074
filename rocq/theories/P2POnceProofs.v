(** A piece is announced to a peer at most once. *)
From Verif Require Import GoBase GoBaseProofs Bitfield BitfieldSpec BitfieldProofs GoMap PeerWire P2PServer P2PServerSpec P2PHaveSpec
  P2PServerProofs P2PSortProofs P2PLockProofs P2PAnnounceProofs P2PRegistryProofs P2PSoloProofs P2POriginProofs NodeServerProofs P2PServerThms P2PEndProofs.
From Coq Require Import Permutation.

Definition occ (p : nat) (l : list nat) : Z := zlen (filter (Nat.eqb p) l).
Lemma occ_cons p x l : occ p (x :: l) = one (Nat.eqb p x) + occ p l.
Proof. unfold occ. cbn [filter]. destruct (Nat.eqb p x); unfold zlen; cbn [List.length one]; lia. Qed.
Lemma occ_nonneg p l : 0 <= occ p l. Proof. unfold occ, zlen. lia. Qed.
Lemma occ_none p l : ~ In p l -> occ p l = 0.
Proof.
  induction l as [|x l IH]; intros N; [reflexivity|]. rewrite occ_cons, IH by (intros X; apply N; now right).
  destruct (Nat.eqb_spec p x) as [->|]; [exfalso; apply N; now left|reflexivity].
Qed.
Lemma occ_nodup p l : NoDup l -> occ p l <= 1.
Proof.
  induction 1 as [|x l N _ IH]; [cbn; unfold occ, zlen; cbn; lia|]. rewrite occ_cons. destruct (Nat.eqb_spec p x) as [->|]; cbn [one]; [|lia].
  rewrite (occ_none _ _ N). lia.
Qed.

Section Once.
Variable own_hash own_id blank : bytes.
Variable i : Z.
Variable p : nat.
Notation exec := (exec own_hash own_id blank).

(** HAVEs of piece i to peer p that a goroutine may still send. *)
Definition pot (th : thread) : Z :=
  match th with
  | TRequester _ (RPick l) => one (existsb (Z.eqb i) l)
  | TPiece _ j (PRun | PShare) => one (i =? j)
  | TPiece _ j (PHave l) => if i =? j then occ p l else 0
  | TPiece _ j (PSend x l) => if i =? j then occ p (x :: l) else 0
  | _ => 0
  end.
(** Goroutines that are sending HAVEs of piece i. *)
Definition late (th : thread) : Z := match th with TPiece _ j (PHave _ | PSend _ _) => one (i =? j) | _ => 0 end.
Lemma pot_nonneg th : 0 <= pot th.
Proof. destruct th as [| |? []|? []|? ? []| | | |]; cbn [pot]; try lia; try apply one_range; destruct (i =? _); try lia; apply occ_nonneg. Qed.
Lemma late_nonneg th : 0 <= late th.
Proof. destruct th as [| |? []|? []|? ? []| | | |]; cbn [late]; try lia; apply one_range. Qed.
Lemma pot_have q rest : pot (THandler q (next_have rest)) = 0. Proof. now destruct rest. Qed.
Lemma pot_after q k : pot (THandler q (after_queue k)) = 0. Proof. now destruct k. Qed.

Definition settled (k : Z) (s : sys) (ev : list event) : Prop := member (s_have s) i /\ count (have_sent p i) ev + tsum pot (s_threads s) <= k.
Definition fresh (s : sys) (ev : list event) : Prop := count (have_sent p i) ev = 0 /\ tsum late (s_threads s) = 0 /\
  (forall t q, nth_error (s_threads s) t = Some (TPiece q i PShare) -> member (s_have s) i).

Lemma nodup_active s : active_ok s -> act_ok s -> NoDup (map snd (g_active (s_reg s))).
Proof.
  intros [N _] A. unfold act_ok in A. revert N A. generalize (g_active (s_reg s)). intros l.
  induction l as [|[x q] l IH]; intros N A; [constructor|]. cbn [map fst snd] in N |- *. inversion_clear N as [|? ? N1 N2]. constructor.
  - intros I. apply in_map_iff in I as ([y q'] & E & I). cbn [snd] in E. subst q'.
    destruct (A x q (or_introl eq_refl)) as (r & R & <- & _). destruct (A y q (or_intror I)) as (r' & R' & <- & _).
    apply N1. apply in_map_iff. exists (name_of r', q). split; [cbn; congruence|exact I].
  - apply IH; [exact N2|]. intros y q' I. apply A. now right.
Qed.
Lemma nodup_same l l' : same_peers l l' = true -> NoDup l -> NoDup l'.
Proof.
  intros H N. apply reorders_perm in H.
  assert (NoDup (map Z.of_nat l')) as N'.
  { apply (Permutation_NoDup H). apply FinFun.Injective_map_NoDup; [intros a b; apply Nat2Z.inj|exact N]. }
  exact (NoDup_map_inv _ _ N').
Qed.

Lemma settled_step k s ev a s' e : active_ok s -> act_ok s -> exec s a = Some (s', e) -> settled k s ev -> settled k s' (ev ++ e).
Proof.
  intros AO AC H [M C]. split; [eapply have_mono; eassumption|]. rewrite count_app.
  enough (count (have_sent p i) e + tsum pot (s_threads s') <= tsum pot (s_threads s)) by lia. clear C.
  pose proof (nodup_active _ AO AC) as ND. clear AO AC.
  open_exec H; drop_facts; fields; sums; rewrite ?unchoke_sum by easy; counts; cbn [have_sent pot one]; rewrite ?pot_have, ?pot_after; try lia.
  all: try (match goal with |- context [m_type ?m =? HAVE] => change (m_type m =? HAVE) with false end; rewrite andb_false_r; cbn [andb one]; lia).
  - match goal with X : sort_slice _ _ _ _ = Some ?l |- context [existsb _ ?l] => assert (existsb (Z.eqb i) l = false) as ->; [|cbn [one]; lia];
      apply Bool.not_true_is_false; intros Y; apply existsb_exists in Y as (j & J & ->%Z.eqb_eq);
      apply (Permutation_in _ (sort_slice_perm _ _ _ _ _ X)) in J end.
    match goal with X : bf_items _ = _ :: _ |- _ => rewrite <- X in J end. apply (proj2 (bf_items_spec _)), diff_member in J as [_ J]. now apply J.
  - cbn [existsb one]. lia.
  - match goal with |- context [existsb ?f (?z :: ?l)] => change (existsb f (z :: l)) with (f z || existsb f l) end.
    match goal with |- context [Z.eqb i ?z || _] => destruct (Z.eqb i z); cbn [orb one] end; match goal with |- context [existsb ?f ?l] => pose proof (one_range (existsb f l)) | _ => idtac end; lia.
  - match goal with |- context [existsb ?f (?z :: ?l)] => change (existsb f (z :: l)) with (f z || existsb f l) end.
    match goal with |- context [Z.eqb i ?z || _] => destruct (Z.eqb i z); cbn [orb one] end; match goal with |- context [existsb ?f ?l] => pose proof (one_range (existsb f l)) | _ => idtac end; lia.
  - match goal with |- context [one (i =? ?j)] => pose proof (one_range (i =? j)); lia end.
  - match goal with |- context [one (i =? ?j)] => pose proof (one_range (i =? j)); lia end.
  - match goal with X : same_peers _ _ = true |- _ => pose proof (occ_nodup p _ (nodup_same _ _ X ND)) end.
    match goal with |- context [i =? ?j] => destruct (i =? j); cbn [one]; lia end.
  - match goal with |- context [i =? ?j] => change (occ p []) with 0; destruct (i =? j); lia end.
  - match goal with |- context [i =? ?j] => destruct (i =? j); [rewrite occ_cons; pose proof (one_range (Nat.eqb p n))|]; lia end.
  - unfold mk_have at 2. cbn [m_index]. change (m_type (mk_have i0) =? HAVE) with true. rewrite andb_true_r, occ_cons, (Z.eqb_sym i0 i).
    destruct (i =? i0); [rewrite andb_true_r|rewrite andb_false_r; cbn [one]]; lia.
  - pose proof (occ_nonneg p (x :: l)). destruct (i =? i0); lia.
Qed.
Lemma holding_pot th : holding th = false -> (forall q j r, th <> TPiece q j r) -> pot th = 0.
Proof. destruct th as [| |? []|? []|? ? []| | | |]; cbn; try discriminate; try reflexivity; intros _ N; exfalso; eapply N; reflexivity. Qed.
(** One goroutine at a time requests and announces piece i; the others have nothing to announce
    while the lock is free. *)
Lemma alone s t q r : locked_ok s -> s_mu s = None -> inflight_ok s -> nth_error (s_threads s) t = Some (TPiece q i r) -> tsum pot (s_threads s) = pot (TPiece q i r).
Proof.
  intros LK MU IF T. specialize (IF i). pose proof (one_range (is_some (mget Z.eqb i (g_inflight (s_reg s))))) as R. rewrite <- IF in R. clear IF.
  assert (tsum pot (list_set t TDone (s_threads s)) = 0) as Z.
  { apply tsum_zero. intros x X. apply In_nth_error in X as (u & U). apply nth_set in U as [[-> ->]|[N U]]; [reflexivity|].
    destruct x as [| |? []|? []|q' j r'| | | |]; try reflexivity.
    - pose proof (LK _ _ U eq_refl). congruence.
    - assert (i <> j) as NE.
      { intros <-. pose proof (tsum_ge2 (piece_of i) t u _ _ _ (piece_nonneg i) T U ltac:(congruence)) as G. cbn [piece_of] in G. rewrite Z.eqb_refl in G. cbn [one] in G. lia. }
      apply Z.eqb_neq in NE. destruct r'; cbn [pot]; rewrite ?NE; reflexivity. }
  rewrite (tsum_set pot _ _ TDone _ T) in Z. change (pot TDone) with 0 in Z. lia.
Qed.
Lemma fresh_step s ev a s' e : locked_ok s -> inflight_ok s -> active_ok s -> act_ok s -> exec s a = Some (s', e) -> fresh s ev -> fresh s' (ev ++ e) \/ settled 1 s' (ev ++ e).
Proof.
  intros LK IF AO AC H (N & L & S).
  assert (D : (exists t q c, nth_error (s_threads s) t = Some (TPiece q i PShare) /\ a = AGo t c) \/ (forall t q c, a = AGo t c -> nth_error (s_threads s) t <> Some (TPiece q i PShare))).
  { destruct a as [t c| | | | | | | | | |]; try (right; discriminate). destruct (nth_error (s_threads s) t) as [[| | | |q j []| | | |]|] eqn:T; try (right; intros ? ? ? [= <- <-]; rewrite T; discriminate).
    destruct (Z.eq_dec j i) as [->|NE]; [left; eauto|]. right. intros ? ? ? [= <- <-]. rewrite T. congruence. }
  destruct D as [(t & q & c & T & ->)|D].
  - right. pose proof (S _ _ T) as M. unfold P2PServer.exec in H. destruct (s_crashed s); [discriminate|]. unfold step_thread in H. rewrite T in H. unfold step_piece in H.
    destruct (nth_error (s_peers s) q); [|discriminate]. destruct c; try discriminate H. destruct (s_mu s) eqn:MU; [discriminate|]. destruct (same_peers _ _) eqn:SP; [|discriminate]. injection H as <- <-.
    split; [exact M|]. rewrite app_nil_r, N. fields. rewrite (tsum_set pot _ _ _ _ T), (alone _ _ _ _ LK MU IF T). cbn [pot]. rewrite Z.eqb_refl. cbn [one].
    pose proof (occ_nodup p _ (nodup_same _ _ SP (nodup_active _ AO AC))). lia.
  - left. clear AO AC LK IF. split; [|split].
    + rewrite count_app, N. open_exec H; counts; cbn [have_sent]; try reflexivity.
      all: try (match goal with |- context [m_type ?m =? HAVE] => change (m_type m =? HAVE) with false end; rewrite andb_false_r; cbn [andb one]; lia).
      match goal with T : nth_error (s_threads s) _ = Some (TPiece _ ?j (PSend _ _)) |- _ => pose proof (tsum_ge late _ _ _ late_nonneg T) as G; cbn [late] in G; destruct (Z.eqb_spec i j) as [->|NE]; cbn [one] in G; [lia|] end.
      match goal with |- context [m_index (mk_have ?j)] => change (m_index (mk_have j)) with j end. match goal with |- context [?j =? i] => rewrite (proj2 (Z.eqb_neq j i)) by congruence end. rewrite andb_false_r. reflexivity.
    + clear S N. open_exec H; drop_facts; fields; sums; rewrite ?unchoke_sum by easy; cbn [late]; try lia.
      * match goal with T : nth_error (s_threads s) _ = Some (TPiece _ ?j PShare) |- _ => destruct (Z.eqb_spec i j) as [->|NE]; cbn [one]; [|lia] end. exfalso. eapply D; [reflexivity|eassumption].
      * match goal with T : nth_error (s_threads s) _ = Some (TPiece _ ?j ?r) |- _ => pose proof (tsum_ge late _ _ _ late_nonneg T) as G; cbn [late] in G; pose proof (one_range (i =? j)); lia end.
      * match goal with T : nth_error (s_threads s) _ = Some (TPiece _ ?j ?r) |- _ => pose proof (tsum_ge late _ _ _ late_nonneg T) as G; cbn [late] in G; pose proof (one_range (i =? j)); lia end.
    + intros t q T. apply (have_mono _ _ _ _ _ _ _ i H). clear L N. open_exec H; revert T; drop_facts; fields; intros T.
      all: repeat match type of T with
        | nth_error (list_set ?t0 ?x ?l) ?t = Some _ => apply nth_set in T as [[-> T]|[_ T]]
        | nth_error (_ ++ [_]) _ = Some _ => apply nth_app in T as [[_ T]|[_ T]]
        end; try discriminate T; try (eapply S; exact T).
      * injection T as _ ->. apply bf_has_member. congruence.
      * destruct (Nat.lt_ge_cases t (List.length (s_threads s))) as [L|L]; [rewrite nth_error_app1 in T by exact L; eapply S; exact T|].
        rewrite nth_error_app2 in T by exact L. apply nth_error_In, unchoke_threads in T as [? T]. discriminate T.
Qed.
End Once.

Section Thm.
Variable hash id : bytes.
Variable n : Z.
Variable have : bytes.
Lemma once_runs blank i p l s ev : bf_new n = Some blank -> zlen have = zlen blank -> runs hash id blank (started have) l = Some (s, ev) ->
  (fresh i p s ev \/ settled i p 1 s ev) /\ (member have i -> settled i p 0 s ev).
Proof.
  intros B Z R. enough (run_of hash id n have l s ev /\ (fresh i p s ev \/ settled i p 1 s ev) /\ (member have i -> settled i p 0 s ev)) by easy. revert R.
  apply (runs_acts_ind hash id blank (fun l s ev => run_of hash id n have l s ev /\ (fresh i p s ev \/ settled i p 1 s ev) /\ (member have i -> settled i p 0 s ev))).
  - split; [exists blank; repeat split; auto|]. split; [left; split; [reflexivity|split; [reflexivity|intros [|t] q T; discriminate T]]|].
    intros M. split; [exact M|]. reflexivity.
  - intros l1 s1 ev1 a s2 e (R & D & M) H. pose proof (run_inv _ _ _ _ _ _ _ R) as V. destruct V. split; [|split].
    + destruct R as (b & B' & Z' & R). assert (b = blank) as -> by congruence. exists blank. split; [exact B|]. split; [exact Z|]. rewrite runs_app, R. cbn [runs]. rewrite H. now rewrite app_nil_r.
    + destruct D as [D|D]; [eapply fresh_step; eassumption|right; eapply settled_step; eassumption].
    + intros X. eapply settled_step; eauto.
Qed.
Theorem told_once l s ev i p : run_of hash id n have l s ev -> count (have_sent p i) ev <= 1 /\ (member have i -> count (have_sent p i) ev = 0).
Proof.
  intros (blank & B & Z & R). destruct (once_runs _ i p _ _ _ B Z R) as [D M].
  assert (0 <= tsum (pot i p) (s_threads s)) by (apply tsum_nonneg, pot_nonneg).
  assert (0 <= count (have_sent p i) ev) by (unfold count, zlen; lia). split.
  - destruct D as [(D & _)|[_ D]]; lia.
  - intros X. destruct (M X) as [_ Y]. lia.
Qed.
End Thm.
