(** The server and the connections agree on where their goroutines are, on the flags, and
    on the messages. *)
From Verif Require Import GoBase GoBaseProofs GoMap Bitfield PeerWire Requests Metainfo MetainfoSpec Fs Storage StorageSpec StorageSysSpec StorageSys Node NodeSpec NodeServerProofs NodeProofs NodeThms P2PServer P2PServerSpec P2PServerProofs P2PAnnounceProofs P2PConn P2PConnSpec P2PConnProofs Client ClientSpec ClientProofs ClientServerProofs ClientConnProofs ClientAskProofs ClientThms.
From Verif Require P2PRegistryProofs P2PServerThms.

(** * The flags in the server *)
Definition sflags (q : remote) : bool * bool * bool := (q_rchoked q, q_choked q, q_interested q).
Definition flag_effect (s : sys) (a : action) (p : nat) (f : bool * bool * bool) : bool * bool * bool :=
  let '(x, y, z) := f in
  match a with
  | AGo t c =>
      match nth_error (s_threads s) t, c with
      | Some (THandler p' HReceive), CMsg m => if Nat.eqb p p' then (if m_type m =? CHOKE then true else if m_type m =? UNCHOKE then false else x, y, z) else f
      | Some (THandler p' (HInterest _)), COk => if Nat.eqb p p' then (x, y, true) else f
      | Some (TRequester p' RNotInterest), COk => if Nat.eqb p p' then (x, y, false) else f
      | Some (TUnchoke p' false), COk => if Nat.eqb p p' then (x, false, z) else f
      | _, _ => f
      end
  | _ => f
  end.
Section Server.
Variable own_hash own_id blank : bytes.
Notation exec := (P2PServer.exec own_hash own_id blank).
Set Default Proof Using "Type".
Lemma drop_flags l : forall s p q', nth_error (s_peers (drop_all l s)) p = Some q' -> exists q, nth_error (s_peers s) p = Some q /\ sflags q' = sflags q.
Proof.
  induction l as [|x l IH]; intros s p q' H; [eauto|]. unfold drop_all in H. cbn [fold_left] in H. fold (drop_all l) in H. apply IH in H as (q & H & E).
  destruct (nth_error (s_peers s) x) as [qx|] eqn:X; [|eauto]. cbn in H. destruct (Nat.eq_dec p x) as [->|N].
  - rewrite list_set_nth_eq in H by (apply nth_error_Some; congruence). injection H as <-. exists qx. split; [exact X|]. rewrite E. reflexivity.
  - rewrite list_set_nth_neq in H by congruence. eauto.
Qed.
Lemma handle_flags q m q' h : handle q m = (q', h) -> sflags q' = (if m_type m =? CHOKE then true else if m_type m =? UNCHOKE then false else q_rchoked q, q_choked q, q_interested q).
Proof.
  unfold handle, sflags. destruct (m_type m =? CHOKE); [intros [= <- <-]; reflexivity|]. destruct (m_type m =? UNCHOKE); [intros [= <- <-]; reflexivity|].
  destruct (m_type m =? INTERESTED); [intros [= <- <-]; reflexivity|]. destruct (m_type m =? NOT_INTERESTED); [intros [= <- <-]; reflexivity|].
  destruct (m_type m =? HAVE); [intros [= <- <-]; reflexivity|]. destruct (m_type m =? BITFIELD); [intros [= <- <-]; reflexivity|].
  destruct (m_type m =? REQUEST); [intros [= <- <-]; reflexivity|]. destruct (m_type m =? PIECE); intros [= <- <-]; reflexivity.
Qed.
Lemma peer_flags s a s' e pp qq : exec s a = Some (s', e) -> nth_error (s_peers s') pp = Some qq ->
  (nth_error (s_peers s) pp = None /\ sflags qq = (true, true, false)) \/ exists q, nth_error (s_peers s) pp = Some q /\ sflags qq = flag_effect s a pp (sflags q).
Proof.
  intros H N. open_exec H; fields_in N; unfold flag_effect, sflags; repeat match goal with X : nth_error (s_threads s) _ = Some _ |- _ => rewrite X end.
  all: try (right; exists qq; split; [exact N|]; repeat match goal with |- context [Nat.eqb ?y ?x] => destruct (Nat.eqb_spec y x) end; subst; try reflexivity; f_equal; congruence).
  all: try (match type of N with nth_error (_ ++ _) _ = _ => destruct (Nat.lt_ge_cases pp (List.length (s_peers s))) as [L|L];
    [rewrite nth_error_app1 in N by exact L; right; exists qq; split; [exact N|reflexivity]|left; split; [now apply nth_error_None|]; rewrite nth_error_app2 in N by exact L; destruct (pp - _)%nat as [|[|]]; cbn in N; try discriminate N; injection N as <-; reflexivity] end).
  all: try (apply (drop_flags (map snd (g_active (s_reg s))) s) in N as (q & N & E); right; exists q; split; [exact N|exact E]).
  all: right; apply nth_set in N as [[-> N]|[NE N]]; [eexists; split; [eassumption|]; subst qq; rewrite ?Nat.eqb_refl; try reflexivity|exists qq; split; [exact N|]; rewrite ?(proj2 (Nat.eqb_neq pp _) NE); reflexivity].
  match goal with X : handle _ _ = _ |- _ => exact (handle_flags _ _ _ _ X) end.
Qed.
End Server.

(** * Where the goroutines are *)
(** The handler of a peer in the server (with its call of the storage and the last message)
    and in its connection. *)
Definition place (h : P2PServer.hpc) (j : option job) (m : option message) (k : P2PConn.hpc) : Prop :=
  match h with
  | HConnect | HHandshake | HRegister | HBitfield | HQueue None | HToken None => k = CRead
  | HLoop => k = CRead \/ k = CHaves
  | HReceive => k = CRead \/ k = CHaves \/ exists x, k = CTake x \/ k = CHandle x
  | HHave _ _ | HRecord _ _ | HCheck _ _ | HQueue (Some _) | HToken (Some _) | HInterest _ => k = CHaves
  | HInterested _ => exists x, k = CInterest x
  | HRequest => exists x, m = Some x /\
      match j with
      | None => k = CRead \/ k = CEnd \/ k = CCheck (asked x) \/ k = CBlock (asked x)
      | Some (JCall _) => k = CBlock (asked x)
      | Some (JBlock d) => exists y, k = CPiece (asked x) d y
      | Some JReset => False
      end
  | HPiece _ => k = CPut
  | HDisconnect | HRelease => k = CRead \/ k = CHaves \/ k = CEnd
  end.
(** A goroutine of the server in a call on the connection of p, and its goroutine there. *)
Definition speaks (th : thread) (j : option job) (p : nat) (y : kthread) : Prop :=
  match th, y with
  | THandler q HBitfield, TSend m _ => q = p /\ m_type m = BITFIELD
  | TRequester q RNotInterest, TFlag FNotInterest None => q = p
  | TRequester q RNotInterested, TFlag FNotInterest (Some _) => q = p
  | TUnchoke q false, TFlag FUnchoke None => q = p
  | TUnchoke q true, TFlag FUnchoke (Some _) => q = p
  | TPiece q _ PRun, (TPull _ _ | TOver) => q = p /\ j = Some JReset
  | TPiece _ i (PSend x _), TSend m _ => x = p /\ m = mk_have i
  | _, _ => False
  end.
Definition conn_thread (c : client) (p k : nat) : option kthread :=
  match nth_error (u_conns c) p with Some K => nth_error (k_threads K) k | None => None end.
Definition msg_of (c : client) (t : nat) : option message := mget Nat.eqb t (n_msgs (u_node c)).
Record wire_ok (c : client) : Prop := {
  w_serve : forall t p h, thread_of c t = Some (THandler p h) -> exists k, serve_at c p = Some k /\ place h (job_of c t) (msg_of c t) k;
  w_flags : forall p q K, nth_error (s_peers (srv c)) p = Some q -> nth_error (u_conns c) p = Some K -> sflags q = flags K;
  w_calls : forall t p k, mget Nat.eqb t (u_calls c) = Some (p, k) -> exists th y, thread_of c t = Some th /\ conn_thread c p k = Some y /\ speaks th (job_of c t) p y;
  w_inj : forall t t' x, mget Nat.eqb t (u_calls c) = Some x -> mget Nat.eqb t' (u_calls c) = Some x -> t = t';
  w_mid : forall t p, thread_of c t = Some (TRequester p RNotInterested) \/ thread_of c t = Some (TUnchoke p true) -> exists k, mget Nat.eqb t (u_calls c) = Some (p, k) }.

(** * Steps of both *)
Inductive bcase (c : client) (n : node) : naction -> list nevent -> nat -> nat -> kchoice -> Prop :=
| BBits t q p k m ch kc e : thread_of c t = Some (THandler q HBitfield) -> mget Nat.eqb t (u_calls c) = Some (p, k) -> conn_thread c p k = Some (TSend m SWrite) ->
    (ch = COk /\ kc = KMsg (mk_bitfield (s_have (srv c))) \/ ch = CErr /\ kc = KErr) -> bcase c n (NServer (AGo t ch)) e p k kc
| BFail t p e : thread_of c t = Some (THandler p HReceive) -> serve_at c p = Some CRead -> bcase c n (NServer (AGo t CErr)) e p 0 KErr
| BRecv t p m e : thread_of c t = Some (THandler p HReceive) -> serve_at c p = Some (CHandle m) -> bcase c n (NServer (AGo t (CMsg m))) e p 0 KOk
| BInterest t p l ch e : thread_of c t = Some (THandler p (HInterest l)) -> bcase c n (NServer (AGo t ch)) e p 0 KMore
| BInterested t p l ch kc e : thread_of c t = Some (THandler p (HInterested l)) -> serve_at c p = Some (CInterest SWrite) -> result_of ch = Some kc -> bcase c n (NServer (AGo t ch)) e p 0 kc
| BFlag t q th p k f ch e : thread_of c t = Some th -> th = TRequester q RNotInterest \/ th = TUnchoke q false -> mget Nat.eqb t (u_calls c) = Some (p, k) -> conn_thread c p k = Some (TFlag f None) ->
    bcase c n (NServer (AGo t ch)) e p k KOk
| BTold t q th p k f ch kc e : thread_of c t = Some th -> th = TRequester q RNotInterested \/ th = TUnchoke q true -> mget Nat.eqb t (u_calls c) = Some (p, k) -> conn_thread c p k = Some (TFlag f (Some SWrite)) ->
    result_of ch = Some kc -> bcase c n (NServer (AGo t ch)) e p k kc
| BHave t q i x l p k m ch kc e : thread_of c t = Some (TPiece q i (PSend x l)) -> mget Nat.eqb t (u_calls c) = Some (p, k) -> conn_thread c p k = Some (TSend m SWrite) ->
    result_of ch = Some kc -> bcase c n (NServer (AGo t ch)) e p k kc
| BGet t p h u i b x r e : thread_of c t = Some (THandler p h) -> bcase c n (NStep t) (NRet u (StorageSys.CGet i b x) r :: e) p 0 (match r with RBlock d => KData d | _ => KErr end)
| BPut t p h u i b x r e : thread_of c t = Some (THandler p h) ->
    bcase c n (NStep t) (NRet u (StorageSys.CPut i b x) r :: e) p 0 (match nth_error (s_threads (n_srv n)) t with Some (THandler _ HLoop) => KOk | _ => KErr end)
| BWrite t p h r d w e : thread_of c t = Some (THandler p h) -> serve_at c p = Some (CPiece r d SWrite) -> bcase c n (NWrite t w) e p 0 (if w then KOk else KErr).
Lemma called_with c t f p k kc : called c t f = With p k kc -> mget Nat.eqb t (u_calls c) = Some (p, k) /\ exists y, conn_thread c p k = Some y /\ f y = Some kc.
Proof.
  unfold called, conn_thread. destruct (mget Nat.eqb t (u_calls c)) as [[p' k']|]; [|discriminate]. destruct (nth_error (u_conns c) p') as [K|] eqn:N; [|discriminate].
  destruct (nth_error (k_threads K) k') as [y|] eqn:T; [|discriminate]. destruct (f y) as [kc'|] eqn:F; [|discriminate]. intros [= <- <- <-]. split; [reflexivity|]. rewrite N. eauto.
Qed.
Lemma called_alone c t f : called c t f <> Alone.
Proof. unfold called. destruct (mget Nat.eqb t (u_calls c)) as [[p' k']|]; [|discriminate]. destruct (nth_error (u_conns c) p') as [K|]; [|discriminate]. destruct (nth_error (k_threads K) k') as [y|]; [|discriminate]. destruct (f y); discriminate. Qed.
Lemma both_cases c a n e p k kc : beside_node c a n e = With p k kc -> bcase c n a e p k kc.
Proof.
  unfold beside_node. destruct a as [a|t|t|t w].
  - destruct a as [t ch| | | | | | | | | |]; try discriminate. destruct (thread_of c t) as [th|] eqn:T; [|discriminate]. unfold beside_server. destruct th as [| |q h|q r|q i r| |q b| |]; try discriminate.
    + destruct h; try discriminate.
      * intros H. apply called_with in H as (M & y & Y & F). destruct y as [| | | |m [|]|]; try discriminate F. destruct ch; try discriminate F; injection F as <-; eapply BBits; eauto.
      * destruct (serve_at c q) as [[|m|m| | | | | | |]|] eqn:S; try discriminate; destruct ch as [| | | | | |m'| |]; try discriminate; try (intros [= <- <- <-]; now apply BFail).
        destruct (msg_eqb m m') eqn:Q; [|discriminate]. apply msg_iff in Q as <-. intros [= <- <- <-]. now apply BRecv.
      * intros [= <- <- <-]. eapply BInterest; eassumption.
      * destruct (serve_at c q) as [[| | | |[|]| | | | |]|] eqn:S; try discriminate. destruct (result_of ch) as [x|] eqn:R; [|discriminate]. intros [= <- <- <-]. eapply BInterested; eassumption.
      * destruct (serve_at c q) as [[]|]; destruct ch; discriminate.
    + destruct r; try discriminate; intros H; apply called_with in H as (M & y & Y & F).
      * destruct y as [| | |f [|]| |]; try discriminate F. injection F as <-. eapply BFlag; eauto.
      * destruct y as [| | |f [[|]|]| |]; try discriminate F. eapply BTold; eauto.
    + destruct r; try discriminate; [destruct (pull_over c t true); discriminate|]. intros H; apply called_with in H as (M & y & Y & F). destruct y as [| | | |m [|]|]; try discriminate F. eapply BHave; eauto.
    + destruct b; intros H; apply called_with in H as (M & y & Y & F).
      * destruct y as [| | |f [[|]|]| |]; try discriminate F. eapply BTold; eauto.
      * destruct y as [| | |f [|]| |]; try discriminate F. injection F as <-. eapply BFlag; eauto.
  - destruct (thread_of c t) as [[| |q h| | | | | |]|]; try discriminate; [destruct h; try discriminate; destruct (serve_at c q) as [[]|]; discriminate|].
    destruct (job_of c t) as [[]|]; try discriminate. destruct (pull_over c t false); discriminate.
  - destruct (thread_of c t) as [[| |q h| | | | | |]|] eqn:T; try discriminate. destruct e as [|[x|u [] r|] e]; try discriminate; intros [= <- <- <-]; [eapply BPut|eapply BGet]; eassumption.
  - destruct (thread_of c t) as [[| |q h| | | | | |]|] eqn:T; try discriminate. destruct (serve_at c q) as [[| | | | | | |r d [|]| |]|] eqn:S; try discriminate. intros [= <- <- <-]. eapply BWrite; eassumption.
Qed.
(** * Steps of the server *)
Definition early (h : P2PServer.hpc) : bool := match h with HConnect | HHandshake | HRegister => true | _ => false end.
Inductive hmove (q : remote) : P2PServer.hpc -> choice -> P2PServer.hpc -> Prop :=
| HmEarly h ch h' : early h = true -> early h' = true \/ h' = HBitfield \/ h' = HRelease -> hmove q h ch h'
| HmBits : hmove q HBitfield COk HLoop
| HmNoBits : hmove q HBitfield CErr HRelease
| HmStop ch : hmove q HLoop ch HDisconnect
| HmLoop ch : hmove q HLoop ch HReceive
| HmFail : hmove q HReceive CErr HDisconnect
| HmMsg m q' h : handle q m = (q', h) -> hmove q HReceive (CMsg m) h
| HmHave i l ch : hmove q (HHave i l) ch (HRecord i l)
| HmRecord i l ch : hmove q (HRecord i l) ch (HCheck i l)
| HmKnown i l ch : hmove q (HCheck i l) ch (next_have l)
| HmWant i l ch : hmove q (HCheck i l) ch (HQueue (Some l))
| HmQueue k ch : hmove q (HQueue k) ch (after_queue k)
| HmToken k ch : hmove q (HQueue k) ch (HToken k)
| HmPassed k ch : hmove q (HToken k) ch (after_queue k)
| HmSame l ch : q_interested q = true -> hmove q (HInterest l) ch (next_have l)
| HmInterest l ch : q_interested q = false -> hmove q (HInterest l) ch (HInterested l)
| HmTold l : hmove q (HInterested l) COk (next_have l)
| HmUntold l : hmove q (HInterested l) CErr HDisconnect
| HmAnswered : hmove q HRequest COk HLoop
| HmRefused : hmove q HRequest CErr HDisconnect
| HmPut i ch : hmove q (HPiece i) ch HLoop
| HmNotPut i ch : hmove q (HPiece i) ch HDisconnect
| HmEnd ch : hmove q HDisconnect ch HRelease.
Definition dull (th : thread) : bool := match th with THandler _ _ | TRequester _ RNotInterested | TUnchoke _ true => false | _ => true end.
Definition fresh (s s' : sys) (th : thread) : Prop := (exists p, th = THandler p HConnect /\ (List.length (s_peers s) <= p < List.length (s_peers s'))%nat) \/ dull th = true.
Section Server2.
Variable own_hash own_id blank : bytes.
Notation exec := (P2PServer.exec own_hash own_id blank).
Set Default Proof Using "Type".
Lemma handler_turn s t ch s' e p h' : exec s (AGo t ch) = Some (s', e) -> s_crashed s' = false -> nth_error (s_threads s') t = Some (THandler p h') ->
  (exists h q, nth_error (s_threads s) t = Some (THandler p h) /\ nth_error (s_peers s) p = Some q /\ hmove q h ch h') \/
  (h' = HConnect /\ p = List.length (s_peers s) /\ List.length (s_peers s') = S p /\ exists tp b, nth_error (s_threads s) t = Some (TDial tp b)).
Proof.
  intros H C T. assert (exists u, u = t) as [u U] by eauto. rewrite <- U in T. open_exec H; revert T; drop_facts; fields; intros T; fields_in C; try discriminate C; threads T; try (exfalso; congruence); try discriminate T; try congruence.
  all: try (match goal with X : nth_error (s_threads _) ?t = Some _, L : (List.length _ <= ?t)%nat |- _ => apply nth_error_None in L; congruence end).
  all: try (injection T as -> ->).
  all: try (left; do 2 eexists; split; [first [reflexivity|eassumption]|]; split; [eassumption|]; solve [eapply HmEarly; [reflexivity|eauto]|eapply HmMsg; eassumption|constructor; assumption|constructor]).
  all: try solve [right; repeat split; fields; rewrite ?app_length; cbn; try lia; eauto].
Qed.
Lemma others_back s a s' e t th : exec s a = Some (s', e) -> (forall ch, a <> AGo t ch) -> nth_error (s_threads s') t = Some th ->
  nth_error (s_threads s) t = Some th \/ (nth_error (s_threads s) t = None /\ fresh s s' th).
Proof.
  intros H N T. assert (exists o, o = nth_error (s_threads s) t) as [o O] by eauto. rewrite <- O.
  open_exec H; revert T; drop_facts; fields; intros T; threads T; try (left; congruence); try (exfalso; eapply N; reflexivity).
  all: try (match type of T with nth_error (_ ++ flat_map _ _) _ = _ => destruct (Nat.lt_ge_cases t (List.length (s_threads s))) as [L|L];
    [rewrite nth_error_app1 in T by exact L; left; congruence|rewrite nth_error_app2 in T by exact L; right; split; [rewrite O; now apply nth_error_None|]; apply nth_error_In in T; apply in_flat_map in T as (x & _ & T); right;
     destruct (nth_error (s_peers s) x) as [q|]; [|destruct T]; destruct (q_closed q || negb (q_choked q)); [destruct T|]; destruct T as [<-|[]]; reflexivity] end).
  all: right; split; [rewrite O; apply nth_error_None; rewrite ?list_set_length in *; lia|]; subst th; first [right; reflexivity|left; eexists; split; [reflexivity|]; fields; rewrite app_length; cbn; lia].
Qed.
Lemma in_call_turn s t ch s' e : exec s (AGo t ch) = Some (s', e) -> in_call (nth_error (s_threads s') t) = true ->
  ch = COk /\ exists p q, nth_error (s_peers s) p = Some q /\
  ((nth_error (s_threads s) t = Some (TRequester p RNotInterest) /\ nth_error (s_threads s') t = Some (TRequester p RNotInterested) /\ q_interested q = true) \/
   (nth_error (s_threads s) t = Some (TUnchoke p false) /\ nth_error (s_threads s') t = Some (TUnchoke p true) /\ q_choked q = true)).
Proof.
  intros H I. destruct (nth_error (s_threads s') t) as [th|] eqn:T; [|discriminate I]. assert (exists u, u = t) as [u U] by eauto. rewrite <- U in T.
  open_exec H; revert T; drop_facts; fields; intros T; threads T; try (exfalso; congruence); try subst th; try discriminate I.
  all: try (exfalso; rewrite U in T; match goal with X : nth_error (s_threads ?s0) ?t0 = Some ?y, Y : nth_error (s_threads ?s0) ?t0 = Some ?z |- _ => rewrite X in Y; injection Y as <- end; discriminate I).
  all: split; [reflexivity|]; do 2 eexists; (split; [eassumption|]); auto 8.
Qed.
End Server2.

(** * What the server says and hears *)
Definition ksent (ek : list kevent) : list message := flat_map (fun x => match x with KSent m => if m_type m =? REQUEST then [] else [m] | _ => [] end) ek.
Definition khandled (ek : list kevent) : list message := flat_map (fun x => match x with KHandled m => [m] | _ => [] end) ek.
Definition speaking (th : thread) (ch : choice) : bool :=
  match th with
  | THandler _ (HBitfield | HInterest _ | HInterested _) | TRequester _ (RNotInterest | RNotInterested) | TUnchoke _ _ | TPiece _ _ (PSend _ _) => true
  | THandler _ HReceive => match ch with CMsg _ => true | _ => false end
  | _ => false
  end.
Lemma quiet_flags s a p f : (forall t ch th, a = AGo t ch -> nth_error (s_threads s) t = Some th -> speaking th ch = false) -> flag_effect s a p f = f.
Proof.
  intros Q. unfold flag_effect. destruct f as [[x y] z]. destruct a; try reflexivity. destruct (nth_error (s_threads s) t) as [th|] eqn:T; [|reflexivity]. specialize (Q _ _ _ eq_refl T).
  destruct th as [| |p1 []|p1 []|p1 i []| |p1 []| |]; try reflexivity; try discriminate Q; destruct c; try reflexivity; discriminate Q.
Qed.
Section Server3.
Variable own_hash own_id blank : bytes.
Notation exec := (P2PServer.exec own_hash own_id blank).
Set Default Proof Using "Type".
Lemma quiet_events s a s' e : exec s a = Some (s', e) -> (forall t ch th, a = AGo t ch -> nth_error (s_threads s) t = Some th -> speaking th ch = false) ->
  forall p, told p (map NEv e) = [] /\ heard p (map NEv e) = [].
Proof.
  intros H Q p. unfold told, heard. open_exec H; cbn; try (split; reflexivity); exfalso; match goal with X : nth_error _ _ = Some _ |- _ => specialize (Q _ _ _ eq_refl X); discriminate Q end.
Qed.
Definition says (s : sys) (th : thread) (ch : choice) : option (nat * message) :=
  match th, ch with
  | THandler p HBitfield, COk => Some (p, mk_bitfield (s_have s))
  | THandler p (HInterested _), COk => Some (p, mk_plain INTERESTED)
  | TRequester p RNotInterested, COk => Some (p, mk_plain NOT_INTERESTED)
  | TUnchoke p true, COk => Some (p, mk_plain UNCHOKE)
  | TPiece _ i (PSend x _), COk => Some (x, mk_have i)
  | _, _ => None
  end.
Definition hears (th : thread) (ch : choice) : option (nat * message) :=
  match th, ch with THandler p HReceive, CMsg m => Some (p, m) | _, _ => None end.
Definition to (p : nat) (o : option (nat * message)) : list message := match o with Some (q, m) => if Nat.eqb p q then [m] else [] | None => [] end.
Lemma step_says s t ch s' e th p : exec s (AGo t ch) = Some (s', e) -> nth_error (s_threads s) t = Some th -> told p (map NEv e) = to p (says s th ch) /\ heard p (map NEv e) = to p (hears th ch).
Proof.
  intros H T. assert (exists th0, Some th0 = nth_error (s_threads s) t /\ th0 = th) as (th0 & T0 & <-) by eauto. unfold told, heard, to, says, hears.
  open_exec H; try (rewrite T in T0; injection T0 as ->); cbn; rewrite ?app_nil_r; try (split; reflexivity); destruct (Nat.eqb p _); split; reflexivity.
Qed.
Definition only_ok (th : thread) : bool := match th with THandler _ (HInterest _) | TRequester _ RNotInterest | TUnchoke _ false => true | _ => false end.
Lemma step_ok s t ch s' e th : exec s (AGo t ch) = Some (s', e) -> nth_error (s_threads s) t = Some th -> only_ok th = true -> ch = COk.
Proof.
  unfold P2PServer.exec, step_thread. intros H T O. rewrite T in H. destruct (s_crashed s); [discriminate|].
  destruct th as [| |p []|p []| | |p []| |]; try discriminate O; unfold step_handler, step_requester in H; brk H; reflexivity.
Qed.
End Server3.
(** * Steps of the client *)
Section Wire.
Variable sha1 : bytes -> bytes.
Variable cfg : config.
Variable env : nat -> Fs.choice.
Variable hash id blank : bytes.
Notation nexec := (nexec sha1 cfg env hash id blank).
Notation uexec := (uexec sha1 cfg env hash id blank).
Notation uruns := (uruns sha1 cfg env hash id blank).
Notation ustep := (ustep sha1 cfg env hash id blank).
Notation sexec := (P2PServer.exec hash id blank).
Notation exec := (StorageSys.exec sha1 cfg env).
Notation threads n := (s_threads (n_srv n)).
Set Default Proof Using "Type".

Lemma moved_other c c' p K K' q K1 : conns_moved c c' p K K' -> q <> p -> nth_error (u_conns c) q = Some K1 -> nth_error (u_conns c') q = Some K1.
Proof. intros (N & m & E) D Q. rewrite E. rewrite nth_error_app1 by (rewrite list_set_length; apply nth_error_Some; congruence). rewrite list_set_nth_neq; congruence. Qed.
Lemma moved_same c c' p K K' : conns_moved c c' p K K' -> nth_error (u_conns c') p = Some K'.
Proof. intros (N & m & E). assert (p < List.length (u_conns c))%nat by (apply nth_error_Some; congruence). rewrite E. rewrite nth_error_app1 by now rewrite list_set_length. now apply list_set_nth_eq. Qed.
Lemma moved_new c c' p K K' q K1 : conns_moved c c' p K K' -> nth_error (u_conns c') q = Some K1 -> (q = p /\ K1 = K') \/ (q <> p /\ nth_error (u_conns c) q = Some K1) \/ ((List.length (u_conns c) <= q)%nat /\ K1 = kstart).
Proof.
  intros (N & m & E) Q. rewrite E in Q. destruct (Nat.lt_ge_cases q (List.length (u_conns c))) as [L|L].
  - rewrite nth_error_app1 in Q by (now rewrite list_set_length). apply nth_set in Q as [[-> Q]|[D Q]]; auto.
  - rewrite nth_error_app2 in Q by (now rewrite list_set_length). apply nth_repeat_k in Q. auto.
Qed.
Lemma moved_serve c c' p K K' k ch ek q h : conns_moved c c' p K K' -> base_ok K -> kexec K (KGo k ch) = Some (K', ek) -> serve_at c q = Some h -> q <> p \/ k <> O -> serve_at c' q = Some h.
Proof.
  intros M B X S D. unfold serve_at in *. destruct (nth_error (u_conns c) q) as [K1|] eqn:Q; [|discriminate]. destruct (Nat.eq_dec q p) as [->|NE].
  - destruct D as [D|D]; [congruence|]. destruct M as (N & M). rewrite Q in N. injection N as ->. rewrite (moved_same c c' p K K') by (split; assumption).
    destruct (nth_error (k_threads K) k) as [th|] eqn:T.
    + destruct (other_step _ _ _ _ _ _ B T D X) as (th' & more & E & _). rewrite E. destruct (nth_error (k_threads K) 0) as [x|] eqn:T0; [|discriminate S].
      rewrite nth_error_app1 by (rewrite list_set_length; apply nth_error_Some; congruence). rewrite list_set_nth_neq by congruence. rewrite T0. exact S.
    + unfold kexec in X. rewrite T in X. destruct (k_crashed K); discriminate X.
  - rewrite (moved_other _ _ _ _ _ _ _ M NE Q). exact S.
Qed.
Lemma moved_zero c c' p K K' ch ek h : conns_moved c c' p K K' -> base_ok K -> kexec K (KGo 0 ch) = Some (K', ek) -> serve_at c p = Some h -> exists h', serve_at c' p = Some h' /\ smove K h ch h' (flags K') ek.
Proof.
  intros M B X S. unfold serve_at in *. rewrite (moved_same _ _ _ _ _ M). destruct M as (N & _). rewrite N in S. destruct (nth_error (k_threads K) 0) as [[h0| | | | |]|] eqn:T; try discriminate S. injection S as ->.
  destruct (serve_step _ _ _ _ _ B T X) as (h' & E & SM). exists h'. rewrite E. rewrite list_set_nth_eq by (apply nth_error_Some; congruence). auto.
Qed.
Lemma moved_thread c c' p K K' k ch ek q k1 y : conns_moved c c' p K K' -> base_ok K -> kexec K (KGo k ch) = Some (K', ek) -> conn_thread c q k1 = Some y -> q <> p \/ k1 <> k -> conn_thread c' q k1 = Some y.
Proof.
  intros M B X S D. unfold conn_thread in *. destruct (nth_error (u_conns c) q) as [K1|] eqn:Q; [|discriminate]. destruct (Nat.eq_dec q p) as [->|NE].
  - destruct D as [D|D]; [congruence|]. destruct M as (N & M). rewrite Q in N. injection N as ->. rewrite (moved_same c c' p K K') by (split; assumption).
    destruct (nth_error (k_threads K) k) as [th|] eqn:T; [|unfold kexec in X; rewrite T in X; destruct (k_crashed K); discriminate X].
    assert (exists th' more, k_threads K' = list_set k th' (k_threads K) ++ more) as (th' & more & E).
    { destruct (Nat.eq_dec k 0) as [->|K0]; [|destruct (other_step _ _ _ _ _ _ B T K0 X) as (th' & more & E & _); eauto].
      pose proof B as (_ & _ & _ & (h & T0) & _). destruct (serve_step _ _ _ _ _ B T0 X) as (h' & E & _). exists (TServe h'), []. now rewrite app_nil_r. }
    rewrite E. rewrite nth_error_app1 by (rewrite list_set_length; apply nth_error_Some; congruence). rewrite list_set_nth_neq by congruence. exact S.
  - rewrite (moved_other _ _ _ _ _ _ _ M NE Q). exact S.
Qed.
Lemma moved_called c c' p K K' k ch ek y : conns_moved c c' p K K' -> base_ok K -> kexec K (KGo k ch) = Some (K', ek) -> conn_thread c p k = Some y -> k <> O -> exists y', conn_thread c' p k = Some y' /\ omove K y ch y' (flags K') ek.
Proof.
  intros M B X S D. unfold conn_thread in *. rewrite (moved_same _ _ _ _ _ M). destruct M as (N & _). rewrite N in S. destruct (other_step _ _ _ _ _ _ B S D X) as (th' & more & E & OM).
  exists th'. split; [|exact OM]. rewrite E. rewrite nth_error_app1 by (rewrite list_set_length; apply nth_error_Some; congruence). apply list_set_nth_eq. apply nth_error_Some; congruence.
Qed.

(** Goroutines that the step does not move. *)
Lemma njob_stays n a n' e t : nexec n a = Some (n', e) -> ~ nturn t a -> mget Nat.eqb t (n_jobs n') = mget Nat.eqb t (n_jobs n) /\ mget Nat.eqb t (n_msgs n') = mget Nat.eqb t (n_msgs n).
Proof.
  intros H N. apply nexec_nstepa in H as [_ H]. unfold nturn in N.
  destruct H as [a1 s e F E|t1 c w1 ts1 A S1|t1 j f k s e J X E|t1 j w' ts' J X|t1 j w' ts' c r0 jb J X KP|t1 j w' ts' c r0 s e J X KP E|t1 d0 p0 m0 s e J T0 M0 E|t1 d0 p0 m0 s e J T0 M0 E]; cbn [n_jobs n_msgs]; (split; [|try reflexivity]).
  all: try reflexivity.
  all: try (rewrite ?mget_put, ?mget_del by exact Nat.eqb_eq; destruct (Nat.eqb_spec t1 t) as [->|D]; [exfalso; apply N; eauto 8|reflexivity]).
  - destruct a1; cbn [end_job]; try reflexivity. rewrite ?mget_put, ?mget_del by exact Nat.eqb_eq. destruct (Nat.eqb_spec t0 t) as [->|D]; [exfalso; apply N; eauto 8|reflexivity].
  - destruct a1 as [t0 ch| | | | | | | | | |]; cbn [note]; try reflexivity. destruct ch; try reflexivity. rewrite ?mget_put, ?mget_del by exact Nat.eqb_eq. destruct (Nat.eqb_spec t0 t) as [->|D]; [exfalso; apply N; eauto 8|reflexivity].
Qed.
Lemma nothers_back n a n' e t th : nexec n a = Some (n', e) -> ~ nturn t a -> nth_error (threads n') t = Some th -> nth_error (threads n) t = Some th \/ (nth_error (threads n) t = None /\ fresh (n_srv n) (n_srv n') th).
Proof.
  intros H N T. apply nexec_nstepa in H as [_ H]. unfold nturn in N.
  destruct H as [a1 s e F E|t1 c w1 ts1 A S1|t1 j f k s e J X E|t1 j w' ts' J X|t1 j w' ts' c r0 jb J X KP|t1 j w' ts' c r0 s e J X KP E|t1 d0 p0 m0 s e J T0 M0 E|t1 d0 p0 m0 s e J T0 M0 E]; cbn [n_srv] in *; try (left; exact T).
  all: eapply others_back; [exact E| |exact T]; intros ch Q; apply N; try injection Q as -> _; try subst; eauto 8.
Qed.

Section At.
Variable c : client.
Variable ev : list uevent.
Hypothesis W : wire_ok c.
Hypothesis LEN : List.length (u_conns c) = List.length (s_peers (srv c)).
Hypothesis BASE : forall p K, nth_error (u_conns c) p = Some K -> base_ok K.
Hypothesis HO : P2PRegistryProofs.hand_ok (srv c).
Hypothesis LV : NodeProofs.live (u_node c) (node_events ev).
Set Default Proof Using "All".

Lemma one_handler t u p h h' : thread_of c t = Some (THandler p h) -> thread_of c u = Some (THandler p h') -> t = u.
Proof.
  intros T U. destruct (Nat.eq_dec t u) as [|N]; [assumption|exfalso]. specialize (HO p).
  pose proof (tsum_ge2 (P2PRegistryProofs.hand p) t u _ _ (s_threads (srv c)) (fun x => ltac:(destruct x; cbn; try lia; apply one_range)) T U N) as G. cbn in G. rewrite Nat.eqb_refl in G. cbn in G.
  pose proof (one_range (p <? List.length (s_peers (srv c)))%nat). unfold srv in *. lia.
Qed.
Lemma entry_pos t p k : mget Nat.eqb t (u_calls c) = Some (p, k) -> k <> O.
Proof.
  intros M ->. destruct (w_calls _ W _ _ _ M) as (th & y & T & Y & S). unfold conn_thread in Y. destruct (nth_error (u_conns c) p) as [K|] eqn:N; [|discriminate]. destruct (BASE _ _ N) as (_ & _ & _ & (h & H0) & _). rewrite H0 in Y. injection Y as <-.
  unfold speaks in S. destruct th as [| |q [] |q [] |q i []| |q []| |]; contradiction.
Qed.
(** A step of both that moves serve is a step of the peer's handler. *)
Lemma serve_turn a n e p ch : beside_node c a n e = With p 0 ch -> exists t h, nturn t a /\ thread_of c t = Some (THandler p h).
Proof.
  intros B. apply both_cases in B. inversion B; subst; try (match goal with M : mget _ _ _ = Some (_, O) |- _ => exfalso; eapply entry_pos; [exact M|reflexivity] end); unfold nturn; eauto 10.
Qed.
Lemma call_turn a n e p k ch : beside_node c a n e = With p k ch -> k <> O -> exists t, nturn t a /\ mget Nat.eqb t (u_calls c) = Some (p, k).
Proof. intros B N. apply both_cases in B. inversion B; subst; try congruence; unfold nturn; eauto 8. Qed.

Lemma place_msg q K m q' h : handle q m = (q', h) -> sflags q = flags K -> place h None (Some m) (after_msg K m).
Proof.
  unfold handle, after_msg, sflags, flags. intros H F. injection F as _ F _. revert H.
  destruct (Z.eqb_spec (m_type m) CHOKE) as [E|N1]; [rewrite E; intros [= _ <-]; left; reflexivity|].
  destruct (Z.eqb_spec (m_type m) UNCHOKE) as [E|N2]; [rewrite E; intros [= _ <-]; reflexivity|].
  destruct (Z.eqb_spec (m_type m) INTERESTED) as [E|N3]; [rewrite E; intros [= _ <-]; left; reflexivity|].
  destruct (Z.eqb_spec (m_type m) NOT_INTERESTED) as [E|N4]; [rewrite E; intros [= _ <-]; left; reflexivity|].
  destruct (Z.eqb_spec (m_type m) HAVE) as [E|N5]; [rewrite E; intros [= _ <-]; reflexivity|].
  destruct (Z.eqb_spec (m_type m) BITFIELD) as [E|N6]; [intros [= _ <-]; cbn [orb]; destruct (bf_items _); cbn; auto|]. cbn [orb].
  destruct (Z.eqb_spec (m_type m) REQUEST) as [E|N7]; [intros [= _ <-]; exists m; split; [reflexivity|]; destruct (k_choked K); auto|].
  destruct (Z.eqb_spec (m_type m) PIECE) as [E|N8]; intros [= _ <-]; cbn; auto.
Qed.
Lemma place_next l j m : place (next_have l) j m CHaves. Proof using. destruct l; cbn; auto. Qed.
Lemma place_queue k j m : place (after_queue k) j m (match k with Some _ => CHaves | None => CRead end). Proof using. destruct k; cbn; auto. Qed.
Lemma turn_place a n e t p h h' k k' : nexec (u_node c) a = Some (n, e) -> nturn t a -> thread_of c t = Some (THandler p h) -> s_crashed (n_srv n) = false ->
  nth_error (threads n) t = Some (THandler p h') -> serve_at c p = Some k -> place h (job_of c t) (msg_of c t) k ->
  ((beside_node c a n e = Alone /\ k' = k) \/ (exists p0 k0 ch, beside_node c a n e = With p0 k0 ch /\ k0 <> O /\ k' = k) \/
   (exists ch K fl ek, beside_node c a n e = With p 0 ch /\ nth_error (u_conns c) p = Some K /\ smove K k ch k' fl ek)) ->
  place h' (mget Nat.eqb t (n_jobs n)) (mget Nat.eqb t (n_msgs n)) k'.
Proof.
  intros X TU T CR T' S P B. pose proof T as T0. unfold thread_of, srv in T0. apply nexec_nstepa in X as [_ X]. unfold nturn in TU.
  destruct X as [a1 s e F E|t1 c1 w1 ts1 A S1|t1 j f k1 s e J X E|t1 j w' ts' J X|t1 j w' ts' c1 r0 jb J X KP|t1 j w' ts' c1 r0 s e J X KP E|t1 d0 p0 m0 s e J T1 M0 E|t1 d0 p0 m0 s e J T1 M0 E]; cbn [n_srv n_jobs n_msgs] in *.
  - assert (exists ch, a1 = AGo t ch) as [ch ->] by (destruct TU as [[ch Q]|[Q|[Q|[b Q]]]]; try discriminate; injection Q as ->; eauto). cbn [end_job note]. rewrite mget_del, Nat.eqb_refl by exact Nat.eqb_eq.
    destruct (handler_turn _ _ _ _ _ _ _ _ _ _ E CR T') as [(h0 & q & TH & Q & HM)|(-> & _ & _ & tp & b & TH)]; [|congruence]. rewrite TH in T0. injection T0 as <-.
    unfold beside_node in B. rewrite T in B. unfold beside_server in B.
    inversion HM; subst; clear HM.
    + assert (k' = k) as -> by (destruct h0; try discriminate; destruct B as [[_ ->]|[(? & ? & ? & ? & _)|(? & ? & ? & ? & ? & _)]]; try discriminate; reflexivity).
      assert (k = CRead) as -> by (destruct h0; try discriminate; exact P). destruct h'; cbn; try reflexivity; try exact I; intuition discriminate.
    + destruct B as [[B _]|[(p1 & k1 & ch1 & B & N0 & ->)|(ch1 & K & fl & ek & B & _)]]; [exfalso; eapply called_alone; exact B| |].
      * cbn in P |- *. auto.
      * exfalso. apply called_with in B as (M & _). eapply entry_pos; [exact M|reflexivity].
    + destruct B as [[B _]|[(p1 & k1 & ch1 & B & N0 & ->)|(ch1 & K & fl & ek & B & _)]]; [exfalso; eapply called_alone; exact B| |].
      * cbn in P |- *. auto.
      * exfalso. apply called_with in B as (M & _). eapply entry_pos; [exact M|reflexivity].
    + destruct B as [[_ ->]|[(? & ? & ? & ? & _)|(? & ? & ? & ? & ? & _)]]; try discriminate. cbn in P |- *. intuition.
    + destruct B as [[_ ->]|[(? & ? & ? & ? & _)|(? & ? & ? & ? & ? & _)]]; try discriminate. cbn in P |- *. intuition.
    + rewrite S in B. destruct k; try (destruct B as [[? _]|[(? & ? & ? & ? & _)|(? & ? & ? & ? & ? & _)]]; discriminate). destruct B as [[? _]|[(? & ? & ? & [= _ <- _] & ? & _)|(ch1 & K & fl & ek & [= <-] & NK & SM)]]; try discriminate; try congruence. inversion SM; subst. cbn. auto.
    + rewrite S in B. assert (exists x, k = CHandle x) as [x ->].
      { destruct k; try (destruct B as [[? _]|[(? & ? & ? & ? & _)|(? & ? & ? & ? & ? & _)]]; discriminate). eauto. }
      destruct (msg_eqb x m) eqn:Q1; [|destruct B as [[? _]|[(? & ? & ? & ? & _)|(? & ? & ? & ? & ? & _)]]; discriminate]. apply msg_iff in Q1 as ->.
      destruct B as [[? _]|[(? & ? & ? & [= _ <- _] & ? & _)|(ch1 & K & fl & ek & [= <-] & NK & SM)]]; try discriminate; try congruence.
      rewrite mget_put, Nat.eqb_refl by exact Nat.eqb_eq. inversion SM; subst. eapply place_msg; [eassumption|eapply (w_flags _ W); eassumption].
    + destruct B as [[_ ->]|[(? & ? & ? & ? & _)|(? & ? & ? & ? & ? & _)]]; try discriminate. exact P.
    + destruct B as [[_ ->]|[(? & ? & ? & ? & _)|(? & ? & ? & ? & ? & _)]]; try discriminate. exact P.
    + destruct B as [[_ ->]|[(? & ? & ? & ? & _)|(? & ? & ? & ? & ? & _)]]; try discriminate. cbn in P. rewrite P. apply place_next.
    + destruct B as [[_ ->]|[(? & ? & ? & ? & _)|(? & ? & ? & ? & ? & _)]]; try discriminate. exact P.
    + destruct B as [[_ ->]|[(? & ? & ? & ? & _)|(? & ? & ? & ? & ? & _)]]; try discriminate. destruct k0; cbn in P |- *; auto.
    + destruct B as [[_ ->]|[(? & ? & ? & ? & _)|(? & ? & ? & ? & ? & _)]]; try discriminate. destruct k0; exact P.
    + destruct B as [[_ ->]|[(? & ? & ? & ? & _)|(? & ? & ? & ? & ? & _)]]; try discriminate. destruct k0; cbn in P |- *; auto.
    + destruct B as [[? _]|[(? & ? & ? & [= _ <- _] & ? & _)|(ch1 & K & fl & ek & [= <-] & NK & SM)]]; try discriminate; try congruence. cbn in P. subst k.
      pose proof (w_flags _ W _ _ _ Q NK) as FL. unfold sflags, flags in FL. injection FL as _ _ FL. inversion SM; subst; [apply place_next|congruence].
    + destruct B as [[? _]|[(? & ? & ? & [= _ <- _] & ? & _)|(ch1 & K & fl & ek & [= <-] & NK & SM)]]; try discriminate; try congruence. cbn in P. subst k.
      pose proof (w_flags _ W _ _ _ Q NK) as FL. unfold sflags, flags in FL. injection FL as _ _ FL. inversion SM; subst; [congruence|cbn; eauto].
    + rewrite S in B. cbn in P. destruct P as [x ->]. destruct x; [destruct B as [[? _]|[(? & ? & ? & ? & _)|(? & ? & ? & ? & ? & _)]]; discriminate|]. cbn [result_of] in B.
      destruct B as [[? _]|[(? & ? & ? & [= _ <- _] & ? & _)|(ch1 & K & fl & ek & [= <-] & NK & SM)]]; try discriminate; try congruence. inversion SM; subst. apply place_next.
    + rewrite S in B. cbn in P. destruct P as [x ->]. destruct x; [destruct B as [[? _]|[(? & ? & ? & ? & _)|(? & ? & ? & ? & ? & _)]]; discriminate|]. cbn [result_of] in B. destruct B as [[? _]|[(? & ? & ? & [= _ <- _] & ? & _)|(ch1 & K & fl & ek & [= <-] & NK & SM)]]; try discriminate; try congruence. inversion SM; subst. cbn. auto.
    + rewrite S in B. destruct k; try (destruct B as [[? _]|[(? & ? & ? & ? & _)|(? & ? & ? & ? & ? & _)]]; discriminate). destruct B as [[_ ->]|[(? & ? & ? & ? & _)|(? & ? & ? & ? & ? & _)]]; try discriminate. cbn. auto.
    + rewrite S in B. destruct k; try (destruct B as [[? _]|[(? & ? & ? & ? & _)|(? & ? & ? & ? & ? & _)]]; discriminate). destruct B as [[_ ->]|[(? & ? & ? & ? & _)|(? & ? & ? & ? & ? & _)]]; try discriminate. cbn. auto.
    + unfold free_to in F. rewrite TH in F. cbn in F. discriminate F.
    + unfold free_to in F. rewrite TH in F. cbn in F. discriminate F.
    + destruct B as [[_ ->]|[(? & ? & ? & ? & _)|(? & ? & ? & ? & ? & _)]]; try discriminate. exact P.
  - assert (t1 = t) as -> by (destruct TU as [[ch Q]|[Q|[Q|[b Q]]]]; congruence). rewrite T0 in T'. injection T' as <-. rewrite mget_put, Nat.eqb_refl by exact Nat.eqb_eq.
    unfold at_call in A. rewrite T0 in A. unfold beside_node in B. rewrite T in B. fold (msg_of c t) in A. fold (job_of c t) in A. unfold msg_of, job_of in *.
    destruct h; try discriminate A.
    + rewrite S in B. destruct (mget Nat.eqb t (n_msgs (u_node c))) as [m|]; [|discriminate A]. destruct (mget Nat.eqb t (n_jobs (u_node c))) as [|] eqn:J0; [discriminate A|]. destruct P as (x & [= <-] & P). exists m. split; [reflexivity|].
      destruct k; try (destruct B as [[? _]|[(? & ? & ? & ? & _)|(? & ? & ? & ? & ? & _)]]; discriminate). destruct B as [[_ ->]|[(? & ? & ? & ? & _)|(? & ? & ? & ? & ? & _)]]; try discriminate.
      destruct P as [P|[P|[P|P]]]; try discriminate. exact P.
    + destruct B as [[_ ->]|[(? & ? & ? & ? & _)|(? & ? & ? & ? & ? & _)]]; try discriminate. exact P.
  - assert (t1 = t) as -> by (destruct TU as [[ch Q]|[Q|[Q|[b Q]]]]; congruence). exfalso.
    destruct (l_jobs _ _ LV _ _ J) as (th & TH & w & ts & st & _ & _ & _ & CI). rewrite T0 in TH. injection TH as <-.
    unfold P2PServer.exec, step_thread, step_handler, crash in E. rewrite T0 in E. destruct (s_crashed (n_srv (u_node c))); [discriminate E|]. destruct (nth_error (s_peers (n_srv (u_node c))) p); [|discriminate E].
    unfold calls_it, call_of in CI. destruct h; destruct CI as [CI|CI]; try discriminate CI; injection E as <- <-; discriminate CR.
  - assert (t1 = t) as -> by (destruct TU as [[ch Q]|[Q|[Q|[b Q]]]]; congruence). rewrite T0 in T'. injection T' as <-. unfold beside_node in B. rewrite T in B.
    destruct B as [[_ ->]|[(? & ? & ? & ? & _)|(? & ? & ? & ? & ? & _)]]; try discriminate. exact P.
  - assert (t1 = t) as -> by (destruct TU as [[ch Q]|[Q|[Q|[b Q]]]]; congruence). rewrite T0 in T'. injection T' as <-. rewrite mget_put, Nat.eqb_refl by exact Nat.eqb_eq.
    destruct (l_jobs _ _ LV _ _ J) as (th & TH & w & ts & st & ST & NT & _ & CI). rewrite T0 in TH. injection TH as <-. rewrite ST in X. pose proof (ret_call _ _ _ _ _ _ _ _ _ _ _ X NT) as EC. rewrite <- EC in CI. unfold beside_node in B. rewrite T in B.
    destruct (calls_inv _ _ _ CI) as [(p1 & m & [= <- ->] & M & ->)|[(p1 & i & m & [= <- ->] & M & ->)|(p1 & i & [=] & _)]]; cbn in KP; [|discriminate KP]. destruct r0 as [|d|]; try discriminate KP. injection KP as <-.
    unfold job_of in P. rewrite J in P. destruct P as (x & MX & ->). unfold msg_of in MX. assert (x = m) as -> by congruence. exists m. split; [exact M|].
    destruct B as [[? _]|[(? & ? & ? & [= _ <- _] & ? & _)|(ch1 & K & fl & ek & [= <-] & NK & SM)]]; try discriminate; try congruence. inversion SM; subst. eauto.
  - assert (t1 = t) as -> by (destruct TU as [[ch Q]|[Q|[Q|[b Q]]]]; congruence).
    destruct (l_jobs _ _ LV _ _ J) as (th & TH & w & ts & st & ST & NT & _ & CI). rewrite T0 in TH. injection TH as <-. rewrite ST in X. pose proof (ret_call _ _ _ _ _ _ _ _ _ _ _ X NT) as EC. rewrite <- EC in CI. unfold beside_node in B. rewrite T in B.
    destruct (handler_turn _ _ _ _ _ _ _ _ _ _ E CR T') as [(h0 & q & TH & Q & HM)|(-> & _ & _ & tp & b & TH)]; [|congruence]. rewrite TH in T0. injection T0 as ->.
    destruct (calls_inv _ _ _ CI) as [(p1 & m & [= <- ->] & M & ->)|[(p1 & i & m & [= <- ->] & M & ->)|(p1 & i & [=] & _)]].
    + cbn [answer] in HM. inversion HM; subst; try discriminate. unfold job_of in P. rewrite J in P. destruct P as (x & MX & ->).
      assert (forall d, r0 <> StorageSys.RBlock d) as NB by (intros d ->; discriminate KP). destruct r0 as [|d|]; try (now destruct (NB d)); cbn in B; destruct B as [[? _]|[(? & ? & ? & [= _ <- _] & ? & _)|(ch1 & K & fl & ek & [= <-] & NK & SM)]]; try discriminate; try congruence. all: inversion SM; subst; cbn; auto.
    + cbn [n_srv] in B. rewrite T' in B. inversion HM; subst; try discriminate; cbn in P; subst k.
      all: destruct B as [[? _]|[(? & ? & ? & [= _ <- _] & ? & _)|(ch1 & K & fl & ek & [= <-] & NK & SM)]]; try discriminate; try congruence. all: inversion SM; subst; cbn; auto.
  - assert (t1 = t) as -> by (destruct TU as [[ch Q]|[Q|[Q|[b Q]]]]; congruence). rewrite T1 in T0. injection T0 as -> <-.
    destruct (handler_turn _ _ _ _ _ _ _ _ _ _ E CR T') as [(h0 & q & TH & Q & HM)|(-> & _ & _ & tp & b & TH)]; [|congruence]. rewrite TH in T1. injection T1 as ->. inversion HM; subst; try discriminate.
    unfold beside_node in B. rewrite T, S in B. unfold job_of in P. rewrite J in P. destruct P as (x & MX & y & ->). destruct y; [destruct B as [[? _]|[(? & ? & ? & ? & _)|(? & ? & ? & ? & ? & _)]]; discriminate|].
    destruct B as [[? _]|[(? & ? & ? & [= _ <- _] & ? & _)|(ch1 & K & fl & ek & [= <-] & NK & SM)]]; try discriminate; try congruence. inversion SM; subst. cbn. auto.
  - assert (t1 = t) as -> by (destruct TU as [[ch Q]|[Q|[Q|[b Q]]]]; congruence). rewrite T1 in T0. injection T0 as -> <-.
    destruct (handler_turn _ _ _ _ _ _ _ _ _ _ E CR T') as [(h0 & q & TH & Q & HM)|(-> & _ & _ & tp & b & TH)]; [|congruence]. rewrite TH in T1. injection T1 as ->. inversion HM; subst; try discriminate.
    unfold beside_node in B. rewrite T, S in B. unfold job_of in P. rewrite J in P. destruct P as (x & MX & y & ->). destruct y; [destruct B as [[? _]|[(? & ? & ? & ? & _)|(? & ? & ? & ? & ? & _)]]; discriminate|].
    destruct B as [[? _]|[(? & ? & ? & [= _ <- _] & ? & _)|(ch1 & K & fl & ek & [= <-] & NK & SM)]]; try discriminate; try congruence. inversion SM; subst. cbn. auto.
Qed.

Definition outcome (a : naction) (n : node) (e : list nevent) (c' : client) (e2 : list uevent) : Prop := u_node c' = n /\
  ((beside_node c a n e = Alone /\ u_conns c' = new_conns n c /\ e2 = []) \/
   exists p k ch K K' ek, beside_node c a n e = With p k ch /\ nth_error (u_conns c) p = Some K /\ kexec K (KGo k ch) = Some (K', ek) /\ u_conns c' = new_conns n (set_uconns (list_set p K' (u_conns c)) c) /\ e2 = map (UK p) ek).
Lemma outcome_moved n c' p K K' : nth_error (u_conns c) p = Some K -> u_conns c' = new_conns n (set_uconns (list_set p K' (u_conns c)) c) -> conns_moved c c' p K K'.
Proof using. intros N E. split; [exact N|]. rewrite E. unfold new_conns. cbn [u_conns set_uconns]. eauto. Qed.
Lemma conn_fresh a n e c' e2 p : nexec (u_node c) a = Some (n, e) -> outcome a n e c' e2 -> (List.length (s_peers (srv c)) <= p < List.length (s_peers (n_srv n)))%nat -> nth_error (u_conns c') p = Some kstart.
Proof.
  intros X (_ & O) [L1 L2]. rewrite <- LEN in L1. assert (forall l, List.length l = List.length (u_conns c) -> nth_error (l ++ repeat kstart (List.length (s_peers (n_srv n)) - List.length l)) p = Some kstart) as G.
  { intros l E. rewrite nth_error_app2 by lia. apply nth_error_repeat. lia. }
  destruct O as [(_ & -> & _)|(q & k & ch & K & K' & ek & _ & N & _ & -> & _)]; unfold new_conns; cbn [u_conns set_uconns]; apply G; [reflexivity|apply list_set_length].
Qed.
Lemma conn_stays a n e c' e2 p K : outcome a n e c' e2 -> nth_error (u_conns c) p = Some K -> (forall k ch, beside_node c a n e <> With p k ch) -> nth_error (u_conns c') p = Some K.
Proof.
  intros (_ & O) N D. destruct O as [(_ & E & _)|(q & k & ch & K0 & K' & ek & B & N0 & _ & E & _)].
  - rewrite E. unfold new_conns. rewrite nth_error_app1; [exact N|apply nth_error_Some; congruence].
  - destruct (Nat.eq_dec p q) as [->|NE]; [exfalso; eapply D; exact B|]. eapply moved_other; [exact (outcome_moved _ _ _ _ _ N0 E)|exact NE|exact N].
Qed.
Lemma serve_node a n e c' e2 : nexec (u_node c) a = Some (n, e) -> s_crashed (n_srv n) = false -> outcome a n e c' e2 ->
  forall t p h, thread_of c' t = Some (THandler p h) -> exists k, serve_at c' p = Some k /\ place h (job_of c' t) (msg_of c' t) k.
Proof.
  intros X CR O t p h T. pose proof O as (UN & D). unfold thread_of, job_of, msg_of, srv in *. rewrite UN in *.
  assert (forall k0, serve_at c p = Some k0 -> (forall ch, beside_node c a n e <> With p 0 ch) -> serve_at c' p = Some k0) as KEEP.
  { intros k0 S Z. destruct D as [(B & E & _)|(q & k & ch & K & K' & ek & B & N0 & X1 & E & _)].
    - unfold serve_at in *. destruct (nth_error (u_conns c) p) as [K|] eqn:N; [|discriminate]. rewrite E. unfold new_conns. rewrite nth_error_app1 by (apply nth_error_Some; congruence). rewrite N. exact S.
    - eapply moved_serve; [exact (outcome_moved _ _ _ _ _ N0 E)|exact (BASE _ _ N0)|exact X1|exact S|]. destruct (Nat.eq_dec p q) as [->|]; [right; intros ->; eapply Z; exact B|left; assumption]. }
  assert (forall q, (List.length (s_peers (srv c)) <= q < List.length (s_peers (n_srv n)))%nat -> serve_at c' q = Some CRead) as NEW.
  { intros q L. unfold serve_at. rewrite (conn_fresh _ _ _ _ _ _ X O L). reflexivity. }
  assert (nturn t a \/ ~ nturn t a) as [TU|TU].
  { unfold nturn. destruct a as [[t0 ch| | | | | | | | | |]|t0|t0|t0 b]; try (right; intros [[x Q]|[Q|[Q|[x Q]]]]; discriminate Q). all: destruct (Nat.eq_dec t0 t) as [->|NE]; [left; eauto 8|right; intros [[x Q]|[Q|[Q|[x Q]]]]; congruence]. }
  - assert ((exists h0, nth_error (threads (u_node c)) t = Some (THandler p h0)) \/ (h = HConnect /\ (List.length (s_peers (srv c)) <= p < List.length (s_peers (n_srv n)))%nat)) as [[h0 T0]|[-> L]].
    { pose proof X as X0. apply nexec_nstepa in X0 as [_ X0]. clear - X0 T CR TU. unfold nturn in TU.
      destruct X0 as [a1 s e F E|t1 c1 w1 ts1 A S1|t1 j f k1 s e J X E|t1 j w' ts' J X|t1 j w' ts' c1 r0 jb J X KP|t1 j w' ts' c1 r0 s e J X KP E|t1 d0 p0 m0 s e J T1 M0 E|t1 d0 p0 m0 s e J T1 M0 E]; cbn [n_srv] in *; eauto.
      - assert (exists ch, a1 = AGo t ch) as [ch ->] by (destruct TU as [[ch Q]|[Q|[Q|[b Q]]]]; try discriminate; injection Q as ->; eauto).
        destruct (handler_turn _ _ _ _ _ _ _ _ _ _ E CR T) as [(h0 & q & TH & _)|(-> & -> & L & _)]; [eauto|]. right. unfold srv. split; [reflexivity|]. lia.
      - assert (t1 = t) as -> by (destruct TU as [[ch Q]|[Q|[Q|[b Q]]]]; congruence). destruct (handler_turn _ _ _ _ _ _ _ _ _ _ E CR T) as [(h0 & q & TH & _)|(-> & -> & L & _)]; [eauto|]. right. unfold srv. split; [reflexivity|]. lia.
      - assert (t1 = t) as -> by (destruct TU as [[ch Q]|[Q|[Q|[b Q]]]]; congruence). destruct (handler_turn _ _ _ _ _ _ _ _ _ _ E CR T) as [(h0 & q & TH & _)|(-> & -> & L & _)]; [eauto|]. right. unfold srv. split; [reflexivity|]. lia.
      - assert (t1 = t) as -> by (destruct TU as [[ch Q]|[Q|[Q|[b Q]]]]; congruence). destruct (handler_turn _ _ _ _ _ _ _ _ _ _ E CR T) as [(h0 & q & TH & _)|(-> & -> & L & _)]; [eauto|]. right. unfold srv. split; [reflexivity|]. lia.
      - assert (t1 = t) as -> by (destruct TU as [[ch Q]|[Q|[Q|[b Q]]]]; congruence). destruct (handler_turn _ _ _ _ _ _ _ _ _ _ E CR T) as [(h0 & q & TH & _)|(-> & -> & L & _)]; [eauto|]. right. unfold srv. split; [reflexivity|]. lia. }
    + destruct (w_serve _ W _ _ _ T0) as (k0 & S & P).
      destruct D as [(B & E & _)|(q & k & ch & K & K' & ek & B & N0 & X1 & E & _)].
      * exists k0. split; [apply KEEP; [exact S|]; intros ch; rewrite B; discriminate|]. refine (turn_place _ _ _ _ _ _ _ _ _ X TU T0 CR T S P (or_introl _)). auto.
      * destruct (Nat.eq_dec k 0) as [->|NZ].
        -- destruct (serve_turn _ _ _ _ _ B) as (t2 & h2 & TU2 & T2). assert (t2 = t) as ->.
           { unfold nturn in TU, TU2. destruct TU as [[x Q]|[Q|[Q|[x Q]]]], TU2 as [[x2 Q2]|[Q2|[Q2|[x2 Q2]]]]; congruence. }
           assert (q = p) as -> by (unfold thread_of, srv in T2; congruence). destruct (moved_zero _ _ _ _ _ _ _ _ (outcome_moved _ _ _ _ _ N0 E) (BASE _ _ N0) X1 S) as (k' & S' & SM). exists k'. split; [exact S'|]. refine (turn_place _ _ _ _ _ _ _ _ _ X TU T0 CR T S P (or_intror (or_intror _))). exists ch, K, (flags K'), ek. auto.
        -- exists k0. split; [apply KEEP; [exact S|]; intros ch0; rewrite B; congruence|]. refine (turn_place _ _ _ _ _ _ _ _ _ X TU T0 CR T S P (or_intror (or_introl _))). exists q, k, ch. auto.
    + exists CRead. split; [now apply NEW|reflexivity].
  - destruct (njob_stays _ _ _ _ _ X TU) as [-> ->]. destruct (nothers_back _ _ _ _ _ _ X TU T) as [T0|(_ & [(p0 & [= -> ->] & L)|F])]; [| |discriminate F].
    + destruct (w_serve _ W _ _ _ T0) as (k0 & S & P). exists k0. split; [|exact P]. apply KEEP; [exact S|]. intros ch B. destruct (serve_turn _ _ _ _ _ B) as (t2 & h2 & TU2 & T2). apply TU. now rewrite (one_handler _ _ _ _ _ T0 T2).
    + exists CRead. split; [now apply NEW|reflexivity].
Qed.

Definition agree (n : node) (e : list nevent) (c' : client) (e2 : list uevent) : Prop :=
  (forall p q K, nth_error (s_peers (n_srv n)) p = Some q -> nth_error (u_conns c') p = Some K -> sflags q = flags K) /\
  forall p, told p e = ksent (conn_events p e2) /\ heard p e = khandled (conn_events p e2).
Lemma quiet_node a n e : nexec (u_node c) a = Some (n, e) -> beside_node c a n e = Alone ->
  (forall p q, nth_error (s_peers (n_srv n)) p = Some q -> (nth_error (s_peers (srv c)) p = None /\ sflags q = (true, true, false)) \/ exists q0, nth_error (s_peers (srv c)) p = Some q0 /\ sflags q = sflags q0) /\
  forall p, told p e = [] /\ heard p e = [].
Proof.
  intros X B. apply nexec_nstepa in X as [_ X].
  assert (forall a1 s e1, sexec (srv c) a1 = Some (s, e1) -> (forall t ch th, a1 = AGo t ch -> nth_error (s_threads (srv c)) t = Some th -> speaking th ch = false) ->
    (forall p q, nth_error (s_peers s) p = Some q -> (nth_error (s_peers (srv c)) p = None /\ sflags q = (true, true, false)) \/ exists q0, nth_error (s_peers (srv c)) p = Some q0 /\ sflags q = sflags q0) /\
    forall p, told p (map NEv e1) = [] /\ heard p (map NEv e1) = []) as G.
  { intros a1 s e1 E Q. split; [|exact (quiet_events _ _ _ _ _ _ _ E Q)]. intros p q N. destruct (peer_flags _ _ _ _ _ _ _ _ _ E N) as [Y|(q0 & N0 & F)]; [left; exact Y|]. right. exists q0. split; [exact N0|]. rewrite F. now apply quiet_flags. }
  assert (forall t j c1 r, mget Nat.eqb t (n_jobs (u_node c)) = Some (JCall j) -> forall t1 ch th, AGo t r = AGo t1 ch -> nth_error (s_threads (srv c)) t1 = Some th -> c1 = speaking th ch -> c1 = false) as JB.
  { intros t j c1 r J t1 ch th [= <- <-] T ->. destruct (l_jobs _ _ LV _ _ J) as (th1 & TH & w & ts & st & ST & NT & _ & CI). unfold srv in T. rewrite T in TH. injection TH as <-.
    destruct (calls_inv _ _ _ CI) as [(p1 & m & -> & M & Z)|[(p1 & i & m & -> & M & Z)|(p1 & i & -> & Z)]]; reflexivity. }
  destruct X as [a1 s e F E|t1 c1 w1 ts1 A S1|t1 j f k1 s e J X E|t1 j w' ts' J X|t1 j w' ts' c1 r0 jb J X KP|t1 j w' ts' c1 r0 s e J X KP E|t1 d0 p0 m0 s e J T1 M0 E|t1 d0 p0 m0 s e J T1 M0 E]; cbn [n_srv].
  - apply (G a1); [exact E|]. intros t ch th -> T. unfold beside_node in B. unfold thread_of in B. rewrite T in B. unfold beside_server in B.
    destruct th as [| |p1 []|p1 []|p1 i []| |p1 []| |]; try reflexivity; try discriminate B; try (exfalso; eapply called_alone; exact B); destruct (serve_at c p1) as [[]|]; destruct ch; try reflexivity; try discriminate B.
    all: try (match type of B with context [msg_eqb ?x ?y] => destruct (msg_eqb x y) end; discriminate B).
    all: match type of B with context [match ?x with SLock => _ | SWrite => _ end] => destruct x end; discriminate B.
  - split; [|intros p; split; reflexivity]. eauto.
  - apply (G (AGo t1 CPanic)); [exact E|]. intros. eapply JB; eauto.
  - split; [|intros p; split; reflexivity]. eauto.
  - split; [|intros p; split; reflexivity]. eauto.
  - destruct (G _ _ _ E) as [G1 G2]; [intros; eapply JB; eauto|]. split; [exact G1|]. intros p. exact (G2 p).
  - unfold beside_node, thread_of, srv in B. rewrite T1 in B. destruct (serve_at c p0) as [[| | | | | | |? ? []| |]|]; discriminate B.
  - apply (G (AGo t1 CErr)); [exact E|]. intros t ch th [= <- <-] T. unfold srv in T. rewrite T1 in T. injection T as <-. reflexivity.
Qed.

Lemma go_node t ch n e : nexec (u_node c) (NServer (AGo t ch)) = Some (n, e) -> exists e1, e = map NEv e1 /\ sexec (srv c) (AGo t ch) = Some (n_srv n, e1).
Proof. intros X. apply nexec_nstepa in X as [_ X]. inversion X; subst. eauto. Qed.
Definition same_or (p : nat) (K' : kstate) (n : node) : Prop := forall p1 q, nth_error (s_peers (n_srv n)) p1 = Some q ->
  (nth_error (s_peers (srv c)) p1 = None /\ sflags q = (true, true, false)) \/ exists q0, nth_error (s_peers (srv c)) p1 = Some q0 /\ (p1 <> p -> sflags q = sflags q0) /\ (p1 = p -> sflags q = flags K').
Definition speak_of (p : nat) (e : list nevent) (ek : list kevent) : Prop := forall p1, told p1 e = (if Nat.eqb p1 p then ksent ek else []) /\ heard p1 e = (if Nat.eqb p1 p then khandled ek else []).
Lemma go_both t ch n e th p K K' ek : nexec (u_node c) (NServer (AGo t ch)) = Some (n, e) -> thread_of c t = Some th -> nth_error (u_conns c) p = Some K ->
  (forall p1 f, p1 <> p -> flag_effect (srv c) (AGo t ch) p1 f = f) -> flag_effect (srv c) (AGo t ch) p (flags K) = flags K' ->
  (forall p1, to p1 (says (srv c) th ch) = (if Nat.eqb p1 p then ksent ek else [])) -> (forall p1, to p1 (hears th ch) = (if Nat.eqb p1 p then khandled ek else [])) ->
  same_or p K' n /\ speak_of p e ek.
Proof.
  intros X T N F1 F2 S H. destruct (go_node _ _ _ _ X) as (e1 & -> & E). split.
  - intros p1 q Q. destruct (peer_flags _ _ _ _ _ _ _ _ _ E Q) as [Y|(q0 & Q0 & Y)]; [left; exact Y|right]. exists q0. split; [exact Q0|]. split.
    + intros NE. rewrite Y. now apply F1.
    + intros ->. rewrite Y. rewrite (w_flags _ W _ _ _ Q0 N). exact F2.
  - intros p1. destruct (step_says _ _ _ _ _ _ _ _ _ p1 E T) as [-> ->]. auto.
Qed.
Lemma to_one p1 p m : to p1 (Some (p, m)) = if Nat.eqb p1 p then [m] else []. Proof using. reflexivity. Qed.
Lemma to_none p1 p : to p1 None = if Nat.eqb p1 p then [] else []. Proof using. now destruct (Nat.eqb p1 p). Qed.
Lemma zero_smove p h K K' ch ek : nth_error (u_conns c) p = Some K -> serve_at c p = Some h -> kexec K (KGo 0 ch) = Some (K', ek) -> exists h', smove K h ch h' (flags K') ek.
Proof.
  intros N S X. unfold serve_at in S. rewrite N in S. destruct (nth_error (k_threads K) 0) as [[h0| | | | |]|] eqn:T; try discriminate S. injection S as ->.
  destruct (serve_step _ _ _ _ _ (BASE _ _ N) T X) as (h' & _ & SM). eauto.
Qed.
Lemma called_omove t p k y K K' ch ek : mget Nat.eqb t (u_calls c) = Some (p, k) -> nth_error (u_conns c) p = Some K -> conn_thread c p k = Some y -> kexec K (KGo k ch) = Some (K', ek) -> exists y', omove K y ch y' (flags K') ek.
Proof.
  intros M N Y X. unfold conn_thread in Y. rewrite N in Y. destruct (other_step _ _ _ _ _ _ (BASE _ _ N) Y (entry_pos _ _ _ M) X) as (y' & _ & _ & OM). eauto.
Qed.
Lemma call_both p t j ch s e1 u cl r K K' : sexec (srv c) (AGo t ch) = Some (s, e1) -> mget Nat.eqb t (n_jobs (u_node c)) = Some (JCall j) -> nth_error (u_conns c) p = Some K -> flags K' = flags K ->
  (forall p1 q, nth_error (s_peers s) p1 = Some q -> (nth_error (s_peers (srv c)) p1 = None /\ sflags q = (true, true, false)) \/ exists q0, nth_error (s_peers (srv c)) p1 = Some q0 /\ (p1 <> p -> sflags q = sflags q0) /\ (p1 = p -> sflags q = flags K')) /\
  forall p1, told p1 (NRet u cl r :: map NEv e1) = (if Nat.eqb p1 p then [] else []) /\ heard p1 (NRet u cl r :: map NEv e1) = (if Nat.eqb p1 p then [] else []).
Proof.
  intros E J N F.
  assert (forall t1 c1 th, AGo t ch = AGo t1 c1 -> nth_error (s_threads (srv c)) t1 = Some th -> speaking th c1 = false) as Q.
  { intros t1 c1 th [= <- <-] T. destruct (l_jobs _ _ LV _ _ J) as (th1 & TH & w & ts & st & ST & NT & _ & CI). unfold srv in T. rewrite T in TH. injection TH as <-.
    destruct (calls_inv _ _ _ CI) as [(p1 & m & -> & M & Z)|[(p1 & i & m & -> & M & Z)|(p1 & i & -> & Z)]]; reflexivity. }
  split.
  - intros p1 q NQ. destruct (peer_flags _ _ _ _ _ _ _ _ _ E NQ) as [Y|(q0 & Q0 & Y)]; [left; exact Y|right]. rewrite quiet_flags in Y by exact Q. exists q0. split; [exact Q0|]. split; [intros _; exact Y|]. intros ->. rewrite Y, F. eapply (w_flags _ W); eassumption.
  - intros p1. destruct (quiet_events _ _ _ _ _ _ _ E Q p1) as [A B]. change (told p1 (NRet u cl r :: map NEv e1)) with (told p1 (map NEv e1)). change (heard p1 (NRet u cl r :: map NEv e1)) with (heard p1 (map NEv e1)). rewrite A, B. now destruct (Nat.eqb p1 p).
Qed.
Ltac silent T := unfold flag_effect; unfold thread_of in T; rewrite T; reflexivity.
Ltac others := match goal with D : ?x <> ?y |- _ => rewrite (proj2 (Nat.eqb_neq x y) D) end.
Ltac eqf := match goal with F : _ = flags ?x |- _ = flags ?x => rewrite <- F | F : flags ?x = _ |- _ = flags ?x => rewrite F | |- _ => idtac end.
Lemma both_node a n e p k ch K K' ek : nexec (u_node c) a = Some (n, e) -> beside_node c a n e = With p k ch -> nth_error (u_conns c) p = Some K -> kexec K (KGo k ch) = Some (K', ek) ->
  same_or p K' n /\ speak_of p e ek.
Proof.
  intros X B N KX. apply both_cases in B. remember (flags K') as fl eqn:FL. destruct B.
  - (* BITFIELD *)
    destruct (called_omove _ _ _ _ _ _ _ _ H0 N H1 KX) as (y' & OM). destruct (w_calls _ W _ _ _ H0) as (th & y & T & Y & S). rewrite H in T. injection T as <-. rewrite H1 in Y. injection Y as <-. destruct S as [-> MT]. rewrite <- FL in OM.
    destruct H2 as [[-> ->]|[-> ->]]; inversion OM; subst.
    + refine (go_both _ _ _ _ _ _ _ _ _ X H N _ _ _ _); [intros ? [[? ?] ?] _; silent H|eqf; unfold flags at 1; silent H| |]; intros p1; cbn; destruct (Nat.eqb p1 p); reflexivity.
    + refine (go_both _ _ _ _ _ _ _ _ _ X H N _ _ _ _); [intros ? [[? ?] ?] _; silent H|eqf; unfold flags at 1; silent H| |]; intros p1; cbn; destruct (Nat.eqb p1 p); reflexivity.
  - (* the read fails *)
    destruct (zero_smove _ _ _ _ _ _ N H0 KX) as (h' & SM). rewrite <- FL in SM. inversion SM; subst.
    refine (go_both _ _ _ _ _ _ _ _ _ X H N _ _ _ _); [intros ? [[? ?] ?] _; silent H|eqf; unfold flags at 1; silent H| |]; intros p1; cbn; destruct (Nat.eqb p1 p); reflexivity.
  - (* a message *)
    destruct (zero_smove _ _ _ _ _ _ N H0 KX) as (h' & SM). rewrite <- FL in SM. inversion SM; subst. unfold thread_of in H.
    refine (go_both _ _ _ _ _ _ _ _ _ X H N _ _ _ _); [intros p1 [[? ?] ?] D; unfold flag_effect; rewrite H; now others|eqf; unfold flags, flag_effect; rewrite H, Nat.eqb_refl; reflexivity| |]; intros p1; cbn; destruct (Nat.eqb p1 p); reflexivity.
  - (* Interest *)
    destruct (w_serve _ W _ _ _ H) as (h & S & P). cbn in P. subst h. destruct (zero_smove _ _ _ _ _ _ N S KX) as (h' & SM). rewrite <- FL in SM. unfold thread_of in H.
    destruct (go_node _ _ _ _ X) as (e1 & E1 & E). pose proof (step_ok _ _ _ _ _ _ _ _ _ E H eq_refl) as ->.
    inversion SM; subst.
    + refine (go_both _ _ _ _ _ _ _ _ _ X H N _ _ _ _); [intros p1 [[? ?] ?] D; unfold flag_effect; rewrite H; now others|eqf; unfold flags, flag_effect; rewrite H, Nat.eqb_refl; congruence| |]; intros p1; cbn; destruct (Nat.eqb p1 p); reflexivity.
    + refine (go_both _ _ _ _ _ _ _ _ _ X H N _ _ _ _); [intros p1 [[? ?] ?] D; unfold flag_effect; rewrite H; now others|eqf; unfold flags, flag_effect; rewrite H, Nat.eqb_refl; congruence| |]; intros p1; cbn; destruct (Nat.eqb p1 p); reflexivity.
  - (* ... written or not *)
    destruct (zero_smove _ _ _ _ _ _ N H0 KX) as (h' & SM). rewrite <- FL in SM. destruct ch; try discriminate; injection H1 as <-; inversion SM; subst.
    + refine (go_both _ _ _ _ _ _ _ _ _ X H N _ _ _ _); [intros ? [[? ?] ?] _; silent H|eqf; unfold flags at 1; silent H| |]; intros p1; cbn; destruct (Nat.eqb p1 p); reflexivity.
    + refine (go_both _ _ _ _ _ _ _ _ _ X H N _ _ _ _); [intros ? [[? ?] ?] _; silent H|eqf; unfold flags at 1; silent H| |]; intros p1; cbn; destruct (Nat.eqb p1 p); reflexivity.
  - (* NotInterest, Unchoke *)
    destruct (called_omove _ _ _ _ _ _ _ _ H1 N H2 KX) as (y' & OM). destruct (w_calls _ W _ _ _ H1) as (th1 & y & T & Y & S). rewrite H in T. injection T as <-. rewrite H2 in Y. injection Y as <-. rewrite <- FL in OM.
    unfold thread_of in H. destruct (go_node _ _ _ _ X) as (e1 & E1 & E).
    destruct H0 as [-> | ->]; cbn in S; destruct f; try contradiction; subst q; pose proof (step_ok _ _ _ _ _ _ _ _ _ E H eq_refl) as ->; inversion OM; subst.
    all: refine (go_both _ _ _ _ _ _ _ _ _ X H N _ _ _ _); [intros p1 [[? ?] ?] D; unfold flag_effect; rewrite H; now others|eqf; unfold flags, flag_effect; rewrite H, Nat.eqb_refl| |]; try (intros p1; cbn; destruct (Nat.eqb p1 p); reflexivity).
    all: match goal with Y : swap _ _ = _ |- _ => unfold swap in Y; brk Y; try injection Y as <- end; cbn; congruence.
  - (* ... written or not *)
    destruct (called_omove _ _ _ _ _ _ _ _ H1 N H2 KX) as (y' & OM). destruct (w_calls _ W _ _ _ H1) as (th1 & y & T & Y & S). rewrite H in T. injection T as <-. rewrite H2 in Y. injection Y as <-. rewrite <- FL in OM.
    destruct H0 as [-> | ->]; cbn in S; destruct f; try contradiction; subst q; destruct ch; try discriminate; injection H3 as <-; inversion OM; subst.
    all: refine (go_both _ _ _ _ _ _ _ _ _ X H N _ _ _ _); [intros ? [[? ?] ?] _; silent H|eqf; unfold flags at 1; silent H| |]; intros p1; cbn; destruct (Nat.eqb p1 p); reflexivity.
  - (* HAVE *)
    destruct (called_omove _ _ _ _ _ _ _ _ H0 N H1 KX) as (y' & OM). destruct (w_calls _ W _ _ _ H0) as (th & y & T & Y & S). rewrite H in T. injection T as <-. rewrite H1 in Y. injection Y as <-. destruct S as [-> ->]. rewrite <- FL in OM.
    destruct ch; try discriminate; injection H2 as <-; inversion OM; subst.
    all: refine (go_both _ _ _ _ _ _ _ _ _ X H N _ _ _ _); [intros ? [[? ?] ?] _; silent H|eqf; unfold flags at 1; silent H| |]; intros p1; cbn; destruct (Nat.eqb p1 p); reflexivity.
  - (* GetBlock *)
    unfold same_or, speak_of.
    destruct (w_serve _ W _ _ _ H) as (h1 & S & _). destruct (zero_smove _ _ _ _ _ _ N S KX) as (h' & SM).
    assert (flags K' = flags K /\ ksent ek = [] /\ khandled ek = []) as (F & -> & ->) by (remember (flags K') as fl'; destruct r; inversion SM; subst; repeat split; congruence).
    apply nexec_nstepa in X as [_ X]. inversion X; subst; try (destruct e0; discriminate).
    + split; [intros p1 q Q; right; exists q; split; [exact Q|]; split; [reflexivity|]; intros ->; rewrite F; eapply (w_flags _ W); eassumption|]. intros p1. cbn. now destruct (Nat.eqb p1 p).
    + match goal with Y : sexec _ _ = _, J : mget _ _ _ = _ |- _ => apply (call_both p _ _ _ _ _ _ _ _ _ _ Y J N F) end.
  - (* PutBlock *)
    unfold same_or, speak_of.
    destruct (w_serve _ W _ _ _ H) as (h1 & S & P). destruct (zero_smove _ _ _ _ _ _ N S KX) as (h' & SM).
    assert (h1 = CPut) as ->.
    { pose proof X as Y. apply nexec_nstepa in Y as [_ Y]. inversion Y; subst; try (destruct e0; discriminate); [discriminate|].
      match goal with J : mget _ _ _ = _, Z : exec _ _ = _ |- _ => rename J into JJ; rename Z into ZZ end. destruct (l_jobs _ _ LV _ _ JJ) as (th & TH & w & ts & st & ST & NT & _ & CI). unfold thread_of, srv in H. rewrite H in TH. injection TH as <-. rewrite ST in ZZ. rewrite <- (ret_call _ _ _ _ _ _ _ _ _ _ _ ZZ NT) in CI.
      destruct (calls_inv _ _ _ CI) as [(p1 & m & [= <- ->] & M & [=])|[(p1 & i1 & m & [= <- ->] & M & Z)|(p1 & i1 & [=] & _)]]. exact P. }
    assert (flags K' = flags K /\ ksent ek = [] /\ khandled ek = []) as (F & -> & ->) by (remember (flags K') as fl'; inversion SM; subst; repeat split; congruence).
    apply nexec_nstepa in X as [_ X]. inversion X; subst; try (destruct e0; discriminate); [discriminate|].
    match goal with Y : sexec _ _ = _, J : mget _ _ _ = _ |- _ => apply (call_both p _ _ _ _ _ _ _ _ _ _ Y J N F) end.
  - (* the block is written or not *)
    unfold same_or, speak_of.
    destruct (zero_smove _ _ _ _ _ _ N H0 KX) as (h' & SM). 
    destruct (w_serve _ W _ _ _ H) as (h1 & S & P). rewrite H0 in S. injection S as <-. apply nexec_nstepa in X as [_ X].
    assert (flags K' = flags K) as F by (remember (flags K') as fl'; destruct w; inversion SM; subst; congruence).
    assert (forall s e1 ch1, sexec (srv c) (AGo t ch1) = Some (s, e1) -> nth_error (threads (u_node c)) t = Some (THandler p HRequest) ->
      (forall p1 q, nth_error (s_peers s) p1 = Some q -> (nth_error (s_peers (srv c)) p1 = None /\ sflags q = (true, true, false)) \/ exists q0, nth_error (s_peers (srv c)) p1 = Some q0 /\ (p1 <> p -> sflags q = sflags q0) /\ (p1 = p -> sflags q = flags K')) /\
      forall p1, told p1 (map NEv e1) = [] /\ heard p1 (map NEv e1) = []) as G.
    { intros s e1 ch1 E TH. assert (forall t1 c1 th, AGo t ch1 = AGo t1 c1 -> nth_error (s_threads (srv c)) t1 = Some th -> speaking th c1 = false) as Q.
      { intros t1 c1 th [= <- <-] T. unfold srv in T. rewrite TH in T. injection T as <-. reflexivity. }
      split; [|exact (quiet_events _ _ _ _ _ _ _ E Q)]. intros p1 q NQ. destruct (peer_flags _ _ _ _ _ _ _ _ _ E NQ) as [Y|(q0 & Q0 & Y)]; [left; exact Y|right]. rewrite quiet_flags in Y by exact Q. exists q0. split; [exact Q0|].
      split; [intros _; exact Y|]. intros ->. rewrite Y, F. eapply (w_flags _ W); eassumption. }
    inversion X; subst; match goal with Y : nth_error _ t = Some (THandler ?x HRequest) |- _ => assert (x = p /\ h = HRequest) as [-> ->] by (unfold thread_of, srv in H; rewrite H in Y; injection Y as -> ->; auto) end.
    + match goal with Y : sexec _ _ = _, TH : nth_error _ t = _ |- _ => destruct (G _ _ _ Y TH) as [G1 G2] end. split; [exact G1|]. intros p1. destruct (G2 p1) as [A B].
      match goal with J : mget _ _ (n_jobs _) = _, M : mget _ _ (n_msgs _) = Some ?m |- _ => unfold job_of, msg_of in P; rewrite J, M in P; destruct P as (x & [= <-] & y & [= -> -> _]) end.
      inversion SM; subst. unfold told, heard in A, B |- *. cbn [flat_map app ksent khandled]. rewrite A, B. rewrite ?app_nil_r. cbn. destruct (Nat.eqb p1 p); split; reflexivity.
    + match goal with Y : sexec _ _ = _, TH : nth_error _ t = _ |- _ => destruct (G _ _ _ Y TH) as [G1 G2] end. split; [exact G1|]. intros p1. destruct (G2 p1) as [A B]. rewrite A, B. inversion SM; subst. cbn. destruct (Nat.eqb p1 p); split; reflexivity.
Qed.
Lemma agree_node a n e c' e2 : nexec (u_node c) a = Some (n, e) -> outcome a n e c' e2 -> agree n e c' e2.
Proof.
  intros X O. pose proof O as (UN & D). assert (forall p q, nth_error (s_peers (srv c)) p = Some q -> exists K, nth_error (u_conns c) p = Some K) as EX.
  { intros p q Q. destruct (nth_error (u_conns c) p) as [K|] eqn:N; [eauto|exfalso]. apply nth_error_None in N. rewrite LEN in N. apply nth_error_None in N. congruence. }
  assert (forall p q, nth_error (s_peers (n_srv n)) p = Some q -> nth_error (s_peers (srv c)) p = None -> (List.length (s_peers (srv c)) <= p < List.length (s_peers (n_srv n)))%nat) as NW.
  { intros p q Q Q0. split; [now apply nth_error_None|apply nth_error_Some; congruence]. }
  destruct D as [(B & E & ->)|(p0 & k & ch & K & K' & ek & B & N0 & X1 & E & ->)].
  - destruct (quiet_node _ _ _ X B) as [F1 F2]. split.
    + intros p q K Q N. destruct (F1 _ _ Q) as [[Q0 F]|(q0 & Q0 & F)].
      * rewrite (conn_fresh _ _ _ _ _ _ X O (NW _ _ Q Q0)) in N. injection N as <-. exact F.
      * destruct (EX _ _ Q0) as [K0 N1]. rewrite (conn_stays _ _ _ _ _ _ _ O N1) in N by (intros ? ?; rewrite B; discriminate). injection N as <-. rewrite F. eapply (w_flags _ W); eassumption.
    + intros p. destruct (F2 p) as [-> ->]. split; reflexivity.
  - destruct (both_node _ _ _ _ _ _ _ _ _ X B N0 X1) as [F1 F2]. split.
    + intros p q K1 Q N. destruct (F1 _ _ Q) as [[Q0 F]|(q0 & Q0 & FA & FB)].
      * rewrite (conn_fresh _ _ _ _ _ _ X O (NW _ _ Q Q0)) in N. injection N as <-. exact F.
      * destruct (Nat.eq_dec p p0) as [->|NE].
        -- rewrite (moved_same _ _ _ _ _ (outcome_moved _ _ _ _ _ N0 E)) in N. injection N as <-. now apply FB.
        -- destruct (EX _ _ Q0) as [K0 N1]. rewrite (moved_other _ _ _ _ _ _ _ (outcome_moved _ _ _ _ _ N0 E) NE N1) in N. injection N as <-. rewrite FA by exact NE. eapply (w_flags _ W); eassumption.
    + intros p. destruct (F2 p) as [-> ->]. rewrite conn_events_uk. destruct (Nat.eqb p p0); split; reflexivity.
Qed.
Lemma turn_dec t a : nturn t a \/ ~ nturn t a.
Proof using.
  unfold nturn. destruct a as [[t0 ch| | | | | | | | | |]|t0|t0|t0 b]; try (right; intros [[x Q]|[Q|[Q|[x Q]]]]; discriminate Q). all: destruct (Nat.eq_dec t0 t) as [->|NE]; [left; eauto 8|right; intros [[x Q]|[Q|[Q|[x Q]]]]; congruence].
Qed.
Lemma turn_one t u a : nturn t a -> nturn u a -> t = u.
Proof using. unfold nturn. intros [[x Q]|[Q|[Q|[x Q]]]] [[x2 Q2]|[Q2|[Q2|[x2 Q2]]]]; congruence. Qed.
Lemma calls_node a n e c' e2 : nexec (u_node c) a = Some (n, e) -> outcome a n e c' e2 -> u_calls c' = calls_after a n c ->
  forall t p k, mget Nat.eqb t (u_calls c') = Some (p, k) -> exists th y, thread_of c' t = Some th /\ conn_thread c' p k = Some y /\ speaks th (job_of c' t) p y.
Proof.
  intros X O UC t p k M. rewrite UC in M. pose proof (calls_sub _ _ _ _ _ M) as M0. destruct (w_calls _ W _ _ _ M0) as (th & y & T & Y & S). pose proof O as (UN & D). unfold thread_of, job_of, srv in *. rewrite UN.
  destruct (turn_dec t a) as [TU|TU].
  - pose proof X as X0. apply nexec_nstepa in X0 as [_ X0]. unfold nturn in TU. destruct TU as [[ch ->]|[->|[->|[b ->]]]].
    + cbn [calls_after] in M. destruct (in_call (nth_error (threads n) t)) eqn:IC; [|rewrite mget_del, Nat.eqb_refl in M by exact Nat.eqb_eq; discriminate].
      destruct (go_node _ _ _ _ X) as (e1 & -> & E). destruct (in_call_turn _ _ _ _ _ _ _ _ E IC) as (-> & p1 & q & Q & H).
      assert (exists f, th = (match f with FNotInterest => TRequester p1 RNotInterest | _ => TUnchoke p1 false end) /\ nth_error (threads n) t = Some (match f with FNotInterest => TRequester p1 RNotInterested | _ => TUnchoke p1 true end) /\
        (f = FNotInterest \/ f = FUnchoke) /\ y = TFlag f None /\ p = p1 /\ match f with FNotInterest => q_interested q = true | _ => q_choked q = true end) as (f & -> & T' & FF & -> & -> & QF).
      { destruct H as [(H1 & H2 & H3)|(H1 & H2 & H3)]; unfold srv in H1; rewrite T in H1; injection H1 as ->; cbn in S; destruct y as [| | |f [|]| |]; try contradiction; destruct f; try contradiction; subst; [exists FNotInterest|exists FUnchoke]; auto 10. }
      assert (beside_node c (NServer (AGo t COk)) n (map NEv e1) = With p1 k KOk) as B.
      { unfold beside_node, thread_of, srv. rewrite T. assert (called c t (fun x => match x with TFlag _ None => Some KOk | _ => None end) = With p1 k KOk) as CA.
        { unfold called. rewrite M0. unfold conn_thread in Y. destruct (nth_error (u_conns c) p1); [|discriminate]. rewrite Y. reflexivity. }
        destruct FF as [-> | ->]; exact CA. }
      destruct D as [(B1 & _)|(p0 & k0 & ch & K & K' & ek & B1 & N0 & X1 & E1 & _)]; rewrite B in B1; [discriminate|]. injection B1 as <- <- <-.
      destruct (moved_called _ _ _ _ _ _ _ _ _ (outcome_moved _ _ _ _ _ N0 E1) (BASE _ _ N0) X1 Y (entry_pos _ _ _ M0)) as (y' & Y' & OM).
      exists (match f with FNotInterest => TRequester p1 RNotInterested | _ => TUnchoke p1 true end), y'. split; [exact T'|]. split; [exact Y'|].
      pose proof (w_flags _ W _ _ _ Q N0) as FL. unfold sflags, flags in FL. injection FL as _ F2 F3.
      remember (flags K') as fl. destruct FF as [-> | ->]; inversion OM; subst; cbn; try reflexivity; exfalso; match goal with Z : swap _ _ = None |- _ => unfold swap in Z; brk Z end; congruence.
    + exfalso. assert (threads n = threads (u_node c) /\ exists c1, at_call (u_node c) t = Some c1) as (TN & c1 & A) by (clear - X0; inversion X0; cbn; eauto). cbn [calls_after] in M. rewrite TN, T in M. unfold at_call in A. rewrite T in A. destruct th as [| |q1 []|q1 []|q1 i1 []| |q1 []| |]; try discriminate A.
      all: cbn [in_call] in M; rewrite mget_del, Nat.eqb_refl in M by exact Nat.eqb_eq; discriminate M.
    + exfalso. assert (exists j, mget Nat.eqb t (n_jobs (u_node c)) = Some (JCall j)) as [j J] by (clear - X0; inversion X0; eauto). destruct (l_jobs _ _ LV _ _ J) as (th1 & TH & w & ts & st & ST & NT & _ & CI). rewrite T in TH. injection TH as <-.
      rewrite J in S. destruct (calls_inv _ _ _ CI) as [(p1 & m & -> & _)|[(p1 & i1 & m & -> & _)|(p1 & i1 & -> & _)]]; cbn in S; try contradiction. destruct y; try contradiction; destruct S; discriminate.
    + exfalso. assert (exists q, nth_error (threads (u_node c)) t = Some (THandler q HRequest)) as [q TH] by (clear - X0; inversion X0; eauto). rewrite T in TH. injection TH as ->. cbn in S. exact S.
  - destruct (njob_stays _ _ _ _ _ X TU) as [-> _]. exists th, y. split; [eapply nstays; eassumption|]. split; [|exact S].
    destruct D as [(B1 & E1 & _)|(p0 & k0 & ch & K & K' & ek & B1 & N0 & X1 & E1 & _)].
    + unfold conn_thread in *. destruct (nth_error (u_conns c) p) as [K|] eqn:N; [|discriminate]. rewrite E1. unfold new_conns. rewrite nth_error_app1 by (apply nth_error_Some; congruence). rewrite N. exact Y.
    + eapply moved_thread; [exact (outcome_moved _ _ _ _ _ N0 E1)|exact (BASE _ _ N0)|exact X1|exact Y|]. destruct (Nat.eq_dec p p0) as [->|]; [right|left; assumption]. intros ->.
      destruct (call_turn _ _ _ _ _ _ B1 (entry_pos _ _ _ M0)) as (u & TU2 & M2). apply TU. now rewrite (w_inj _ W _ _ _ M0 M2).
Qed.
Lemma mid_node a n e c' e2 : nexec (u_node c) a = Some (n, e) -> s_crashed (n_srv n) = false -> outcome a n e c' e2 -> u_calls c' = calls_after a n c ->
  forall t p, thread_of c' t = Some (TRequester p RNotInterested) \/ thread_of c' t = Some (TUnchoke p true) -> exists k, mget Nat.eqb t (u_calls c') = Some (p, k).
Proof.
  intros X CR O UC t p T. pose proof O as (UN & D). unfold thread_of, srv in *. rewrite UN in T. rewrite UC. destruct (turn_dec t a) as [TU|TU].
  - pose proof X as X0. apply nexec_nstepa in X0 as [_ X0]. unfold nturn in TU. destruct TU as [[ch ->]|[->|[->|[b ->]]]].
    + assert (in_call (nth_error (threads n) t) = true) as IC by (destruct T as [-> | ->]; reflexivity). cbn [calls_after]. rewrite IC. destruct (go_node _ _ _ _ X) as (e1 & -> & E). destruct (in_call_turn _ _ _ _ _ _ _ _ E IC) as (-> & p1 & q & Q & H).
      assert (p1 = p) as -> by (destruct H as [(_ & H & _)|(_ & H & _)], T as [T|T]; congruence).
      assert (exists k, called c t (fun x => match x with TFlag _ None => Some KOk | _ => None end) = With p k KOk) as [k CA].
      { unfold beside_node, thread_of in D. destruct (called c t (fun x => match x with TFlag _ None => Some KOk | _ => None end)) as [|p2 k2 ch2|] eqn:CA.
        - exfalso. eapply called_alone. exact CA.
        - pose proof CA as CA1. apply called_with in CA1 as (M & y & Y & F). destruct (w_calls _ W _ _ _ M) as (th & y1 & T1 & Y1 & S). rewrite Y in Y1. injection Y1 as <-. destruct y as [| | |f [|]| |]; try discriminate F. injection F as <-. exists k2.
          destruct H as [(H & _)|(H & _)]; unfold thread_of in T1; rewrite H in T1; injection T1 as <-; cbn in S; destruct f; try contradiction; subst; reflexivity.
        - exfalso. destruct H as [(H & _)|(H & _)]; rewrite H in D; cbn [beside_server] in D; rewrite CA in D; destruct D as [(? & _)|(? & ? & ? & ? & ? & ? & ? & _)]; discriminate. }
      apply called_with in CA as (M & _). eauto.
    + exfalso. assert (threads n = threads (u_node c) /\ exists c1, at_call (u_node c) t = Some c1) as (TN & c1 & A) by (clear - X0; inversion X0; cbn; eauto). rewrite TN in T. unfold at_call in A. destruct T as [T|T]; rewrite T in A; discriminate A.
    + exfalso. assert (exists j, mget Nat.eqb t (n_jobs (u_node c)) = Some (JCall j)) as [j J] by (clear - X0; inversion X0; eauto). destruct (l_jobs _ _ LV _ _ J) as (th1 & TH & w & ts & st & ST & NT & _ & CI).
      assert (forall ch s e1, sexec (n_srv (u_node c)) (AGo t ch) = Some (s, e1) -> nth_error (s_threads s) t = Some (TRequester p RNotInterested) \/ nth_error (s_threads s) t = Some (TUnchoke p true) -> False) as G.
      { intros ch s e1 E T1. assert (in_call (nth_error (s_threads s) t) = true) as IC by (destruct T1 as [-> | ->]; reflexivity). destruct (in_call_turn _ _ _ _ _ _ _ _ E IC) as (-> & p1 & q & Q & H).
        destruct (calls_inv _ _ _ CI) as [(p2 & m & -> & _)|[(p2 & i1 & m & -> & _)|(p2 & i1 & -> & _)]]; destruct H as [(H & _)|(H & _)]; congruence. }
      clear - X0 T CI TH G. inversion X0; subst; cbn [n_srv] in *; try (eapply G; eassumption); destruct (calls_inv _ _ _ CI) as [(p2 & m & -> & _)|[(p2 & i1 & m & -> & _)|(p2 & i1 & -> & _)]]; destruct T as [T|T]; congruence.
    + exfalso. assert (forall ch s e1 q, sexec (n_srv (u_node c)) (AGo t ch) = Some (s, e1) -> nth_error (threads (u_node c)) t = Some (THandler q HRequest) -> nth_error (s_threads s) t = Some (TRequester p RNotInterested) \/ nth_error (s_threads s) t = Some (TUnchoke p true) -> False) as G.
      { intros ch s e1 q E TH T1. assert (in_call (nth_error (s_threads s) t) = true) as IC by (destruct T1 as [-> | ->]; reflexivity). destruct (in_call_turn _ _ _ _ _ _ _ _ E IC) as (-> & p1 & q1 & Q & H). destruct H as [(H & _)|(H & _)]; congruence. }
      clear - X0 T G. inversion X0; subst; cbn [n_srv] in *; eapply G; eassumption.
  - rewrite calls_keep by exact TU. destruct T as [T|T]; destruct (nothers_back _ _ _ _ _ _ X TU T) as [T0|(_ & [(p0 & [=] & _)|F])]; try discriminate F; eapply (w_mid _ W); eauto.
Qed.
Lemma wire_node a n e c' e2 : nexec (u_node c) a = Some (n, e) -> s_crashed (n_srv n) = false -> outcome a n e c' e2 -> u_calls c' = calls_after a n c -> wire_ok c'.
Proof.
  intros X CR O UC. pose proof O as (UN & _). split.
  - exact (serve_node _ _ _ _ _ X CR O).
  - unfold srv. rewrite UN. apply (agree_node _ _ _ _ _ X O).
  - exact (calls_node _ _ _ _ _ X O UC).
  - intros t t' x M M'. rewrite UC in M, M'. eapply (w_inj _ W); eapply calls_sub; eassumption.
  - exact (mid_node _ _ _ _ _ X CR O UC).
Qed.

(** Steps of the connections alone. *)
Lemma asks_quiet (e : list kevent) r : (forall m, In (KSent m) e -> m = request_of r) -> ksent e = [].
Proof using.
  intros H. induction e as [|x e IH]; [reflexivity|]. unfold ksent in *. cbn [flat_map]. rewrite IH by (intros m I; apply H; now right). rewrite app_nil_r.
  destruct x; try reflexivity. rewrite (H m) by now left. now destruct r as [[? ?] ?].
Qed.
Lemma unheard (e : list kevent) : (forall m, ~ In (KHandled m) e) -> khandled e = [].
Proof using.
  intros H. induction e as [|x e IH]; [reflexivity|]. unfold khandled in *. cbn [flat_map]. rewrite IH by (intros m I; apply (H m); now right). rewrite app_nil_r.
  destruct x; try reflexivity. destruct (H m). now left.
Qed.
Lemma conn_call_new have th j p a K K' ek : conn_call cfg have th j = Some (p, a) -> kexec K a = Some (K', ek) ->
  exists y, k_threads K' = k_threads K ++ [y] /\ flags K' = flags K /\ speaks th j p y /\ ksent ek = [] /\ khandled ek = [].
Proof using.
  intros C E. unfold conn_call in C. unfold kexec in E. destruct (k_crashed K); [discriminate E|].
  destruct th as [| |p0 []|p0 []|p0 i []| |p0 []| |]; try discriminate C.
  all: try (injection C as <- <-; cbn in E; injection E as <- <-; eexists; split; [reflexivity|]; repeat split; fail).
  destruct j as [[| |]|]; try discriminate C. destruct (piece_requests _) as [l|]; [|discriminate C]. injection C as <- <-. injection E as <- <-. eexists. split; [reflexivity|]. repeat split.
Qed.
Lemma flags_conns c' p K K' : u_node c' = u_node c -> nth_error (u_conns c) p = Some K -> u_conns c' = list_set p K' (u_conns c) -> flags K' = flags K ->
  forall p1 q K1, nth_error (s_peers (srv c')) p1 = Some q -> nth_error (u_conns c') p1 = Some K1 -> sflags q = flags K1.
Proof.
  intros UN N UC F p1 q K1 Q N1. unfold srv in Q. rewrite UN in Q. rewrite UC in N1. apply nth_set in N1 as [[-> ->]|[NE N1]]; [rewrite F|]; eapply (w_flags _ W); eassumption.
Qed.
Lemma plain_moved c' p K K' : nth_error (u_conns c) p = Some K -> u_conns c' = list_set p K' (u_conns c) -> conns_moved c c' p K K'.
Proof using. intros N E. split; [exact N|]. exists O. rewrite E. now rewrite app_nil_r. Qed.
Lemma wire_call t th p a K K' ek c' : thread_of c t = Some th -> mget Nat.eqb t (u_calls c) = None -> conn_call cfg (s_have (srv c)) th (job_of c t) = Some (p, a) -> nth_error (u_conns c) p = Some K ->
  kexec K a = Some (K', ek) -> u_node c' = u_node c -> u_conns c' = list_set p K' (u_conns c) -> u_calls c' = mput Nat.eqb t (p, List.length (k_threads K)) (u_calls c) ->
  wire_ok c' /\ ksent ek = [] /\ khandled ek = [].
Proof.
  intros T M C N E UN UK UC. destruct (conn_call_new _ _ _ _ _ _ _ _ C E) as (y & TH & F & S & EK). split; [|exact EK]. pose proof (plain_moved _ _ _ _ N UK) as MV.
  assert (forall q k z, conn_thread c q k = Some z -> conn_thread c' q k = Some z) as KT.
  { intros q k z Z. unfold conn_thread in *. destruct (nth_error (u_conns c) q) as [K1|] eqn:Q; [|discriminate]. destruct (Nat.eq_dec q p) as [->|NE].
    - rewrite (moved_same _ _ _ _ _ MV), TH. rewrite N in Q. injection Q as <-. rewrite nth_error_app1; [exact Z|apply nth_error_Some; congruence].
    - now rewrite (moved_other _ _ _ _ _ _ _ MV NE Q). }
  split; unfold thread_of, job_of, msg_of, srv; rewrite ?UN.
  - intros t1 q h T1. destruct (w_serve _ W _ _ _ T1) as (k & S1 & P). exists k. split; [|exact P]. assert (conn_thread c q 0 = Some (TServe k)) as Z.
    { unfold serve_at in S1. unfold conn_thread. destruct (nth_error (u_conns c) q) as [K1|]; [|discriminate]. destruct (nth_error (k_threads K1) 0) as [[]|]; try discriminate. now injection S1 as ->. }
    apply KT in Z. unfold conn_thread in Z. unfold serve_at. destruct (nth_error (u_conns c') q) as [K1|]; [|discriminate]. now rewrite Z.
  - pose proof (flags_conns _ _ _ _ UN N UK F) as FC. unfold srv in FC. rewrite UN in FC. exact FC.
  - intros t1 p1 k1 M1. rewrite UC, mget_put in M1 by exact Nat.eqb_eq. destruct (Nat.eqb_spec t t1) as [->|NE].
    + injection M1 as <- <-. exists th, y. split; [exact T|]. split; [|exact S]. unfold conn_thread. rewrite (moved_same _ _ _ _ _ MV), TH. rewrite nth_error_app2, Nat.sub_diag by lia. reflexivity.
    + rewrite mget_del in M1 by exact Nat.eqb_eq. rewrite (proj2 (Nat.eqb_neq t t1) NE) in M1. destruct (w_calls _ W _ _ _ M1) as (th1 & y1 & T1 & Y1 & S1). exists th1, y1. auto.
  - intros t1 t2 x M1 M2. rewrite UC in M1, M2. rewrite !mget_put, !mget_del in M1, M2 by exact Nat.eqb_eq.
    assert (forall u k, mget Nat.eqb u (u_calls c) = Some (p, k) -> (k < List.length (k_threads K))%nat) as LT.
    { intros u k MU. destruct (w_calls _ W _ _ _ MU) as (_ & y1 & _ & Y1 & _). unfold conn_thread in Y1. rewrite N in Y1. apply nth_error_Some. congruence. }
    destruct (Nat.eqb_spec t t1) as [<-|N1], (Nat.eqb_spec t t2) as [<-|N2]; try reflexivity; try congruence.
    + injection M1 as <-. specialize (LT _ _ M2). lia.
    + injection M2 as <-. specialize (LT _ _ M1). lia.
    + eapply (w_inj _ W); eassumption.
  - intros t1 p1 T1. destruct (w_mid _ W _ _ T1) as (k & M1). exists k. rewrite UC, mget_put, mget_del by exact Nat.eqb_eq. destruct (Nat.eqb_spec t t1) as [->|NE]; [congruence|exact M1].
Qed.
Lemma wire_conn p k ch th K K' ek c' : nth_error (u_conns c) p = Some K -> nth_error (k_threads K) k = Some th -> inside c p th ch = true -> kexec K (KGo k ch) = Some (K', ek) ->
  u_node c' = u_node c -> u_conns c' = list_set p K' (u_conns c) -> u_calls c' = u_calls c -> wire_ok c' /\ ksent ek = [] /\ khandled ek = [].
Proof.
  intros N T I E UN UK UC. pose proof (BASE _ _ N) as BK. pose proof (plain_moved _ _ _ _ N UK) as MV.
  assert (flags K' = flags K /\ ksent ek = [] /\ khandled ek = [] /\ (forall t q h, thread_of c t = Some (THandler q h) -> exists k', serve_at c' q = Some k' /\ place h (job_of c t) (msg_of c t) k') /\
    (forall t p1 k1, mget Nat.eqb t (u_calls c) = Some (p1, k1) -> exists th1 y, thread_of c t = Some th1 /\ conn_thread c' p1 k1 = Some y /\ speaks th1 (job_of c t) p1 y)) as (F & K1 & K2 & SV & SP).
  { destruct (Nat.eq_dec k 0) as [->|NZ].
    - pose proof BK as (_ & _ & _ & (h & T0) & _). rewrite T in T0. injection T0 as ->. destruct (serve_step _ _ _ _ _ BK T E) as (h' & TH & SM).
      assert (serve_at c p = Some h) as S0 by (unfold serve_at; now rewrite N, T). destruct (moved_zero _ _ _ _ _ _ _ _ MV BK E S0) as (h1 & S1 & SM1). clear SM TH h'.
      assert (flags K' = flags K /\ ksent ek = [] /\ khandled ek = []) as (F & K1 & K2).
      { remember (flags K') as fl. inversion SM1; subst; cbn in I; try discriminate I; repeat split; congruence. }
      split; [exact F|]. split; [exact K1|]. split; [exact K2|]. split.
      + intros t q hh TH. destruct (w_serve _ W _ _ _ TH) as (k0 & S2 & P). destruct (Nat.eq_dec q p) as [->|NE]; [|exists k0; split; [eapply moved_serve; eauto|exact P]].
        exists h1. split; [exact S1|]. rewrite S0 in S2. injection S2 as <-.
        assert (handler_at c p receiving = true -> hh = HReceive) as RC.
        { intros HA. unfold handler_at in HA. apply existsb_exists in HA as (th0 & IN & HA). destruct th0 as [| |q0 h0| | | | | |]; try discriminate HA. apply andb_prop in HA as [HA HB]. apply Nat.eqb_eq in HA as <-. destruct h0; try discriminate HB.
          apply In_nth_error in IN as [u U]. pose proof (one_handler _ _ _ _ _ TH U) as <-. unfold thread_of in TH. congruence. }
        inversion SM1; subst; cbn in I; try discriminate I.
        * apply andb_prop in I as [_ I]. rewrite (RC I). cbn. eauto.
        * destruct hh as [| | | | | | | | |[]|[]| | | | | |]; cbn in P |- *; try (now destruct P as [P|[P|P]]; discriminate P); try discriminate P; try (now destruct P as [P|P]; discriminate P); try (now destruct P as [? P]; discriminate P).
          -- right. right. eexists. right. destruct P as [P|[P|[x [P|P]]]]; try discriminate P. reflexivity.
          -- exfalso. destruct P as (x & _ & P). destruct (job_of c t) as [[| |]|]; [discriminate P|destruct P|destruct P; discriminate|]. destruct P as [P|[P|[P|P]]]; discriminate P.
        * rewrite (RC I). cbn. auto.
        * destruct hh as [| | | | | | | | |[]|[]| | | | | |]; cbn in P |- *; try (now destruct P as [P|[P|P]]; discriminate P); try discriminate P; try (now destruct P as [P|P]; discriminate P).
          -- exfalso. destruct P as [P|[P|[x [P|P]]]]; discriminate P.
          -- eexists. reflexivity.
          -- exfalso. destruct P as (x & _ & P). destruct (job_of c t) as [[| |]|]; [discriminate P|destruct P|destruct P; discriminate|]. destruct P as [P|[P|[P|P]]]; discriminate P.
        * destruct hh as [| | | | | | | | |[]|[]| | | | | |]; cbn in P |- *; try (now destruct P as [P|[P|P]]; discriminate P); try discriminate P; try (now destruct P as [P|P]; discriminate P); try (now destruct P as [? P]; discriminate P).
          -- exfalso. destruct P as [P|[P|[x [P|P]]]]; discriminate P.
          -- destruct P as (x & MX & P). exists x. split; [exact MX|]. destruct (job_of c t) as [[| |]|]; [discriminate P|destruct P|destruct P; discriminate|auto].
        * destruct hh as [| | | | | | | | |[]|[]| | | | | |]; cbn in P |- *; try (now destruct P as [P|[P|P]]; discriminate P); try discriminate P; try (now destruct P as [P|P]; discriminate P); try (now destruct P as [? P]; discriminate P).
          -- exfalso. destruct P as [P|[P|[x [P|P]]]]; discriminate P.
          -- destruct P as (x & MX & P). exists x. split; [exact MX|]. destruct (job_of c t) as [[| |]|]; [discriminate P|destruct P|destruct P; discriminate|]. destruct P as [P|[P|[P|P]]]; try discriminate P. injection P as ->. auto.
        * destruct hh as [| | | | | | | | |[]|[]| | | | | |]; cbn in P |- *; try (now destruct P as [P|[P|P]]; discriminate P); try discriminate P; try (now destruct P as [P|P]; discriminate P); try (now destruct P as [? P]; discriminate P).
          -- exfalso. destruct P as [P|[P|[x [P|P]]]]; discriminate P.
          -- destruct P as (x & MX & P). exists x. split; [exact MX|]. destruct (job_of c t) as [[| |]|]; [discriminate P|destruct P|destruct P as [y P]; injection P as <- <- _; eauto|]. destruct P as [P|[P|[P|P]]]; discriminate P.
      + intros t p1 k1 M. destruct (w_calls _ W _ _ _ M) as (th1 & y & T1 & Y & S). exists th1, y. split; [exact T1|]. split; [|exact S]. eapply moved_thread; eauto.
        destruct (Nat.eq_dec p1 p) as [->|]; [|auto]. destruct (Nat.eq_dec k1 0) as [->|]; [|auto]. exfalso. unfold conn_thread in Y. rewrite N, T in Y. injection Y as <-. destruct th1 as [| |q0 []|q0 []|q0 i []| |q0 []| |]; exact S.
    - assert (conn_thread c p k = Some th) as T0 by (unfold conn_thread; now rewrite N).
      destruct (moved_called _ _ _ _ _ _ _ _ _ MV BK E T0 NZ) as (y' & Y' & OM).
      assert (flags K' = flags K /\ ksent ek = [] /\ khandled ek = [] /\ forall th1 j, speaks th1 j p th -> speaks th1 j p y') as (F & K1 & K2 & SP).
      { remember (flags K') as fl. clear BASE MV T0 Y'. inversion OM; subst; cbn in I; try discriminate I; try (match goal with X : flags _ = flags K' |- _ => rewrite <- X end).
        all: try (split; [congruence|]; split; [reflexivity|]; split; [reflexivity|]; intros [| |q0 []|q0 []|q0 i []| |q0 []| |] j S; exact S).
        split; [congruence|]. split; [|split; [|intros [| |q0 []|q0 []|q0 i []| |q0 []| |] j S; exact S]].
        - match goal with X : forall m, In (KSent m) _ -> _ |- _ => apply asks_quiet with (1 := X) end.
        - match goal with X : forall m, ~ In (KHandled m) _ |- _ => apply unheard with (1 := X) end. }
      split; [exact F|]. split; [exact K1|]. split; [exact K2|]. split.
      + intros t q h TH. destruct (w_serve _ W _ _ _ TH) as (k0 & S2 & P). exists k0. split; [eapply moved_serve; eauto|exact P].
      + intros t p1 k1 M. destruct (w_calls _ W _ _ _ M) as (th1 & y & T1 & Y & S). destruct (Nat.eq_dec p1 p) as [->|NP]; [destruct (Nat.eq_dec k1 k) as [->|NK]|].
        * exists th1, y'. split; [exact T1|]. split; [exact Y'|]. apply SP. congruence.
        * exists th1, y. split; [exact T1|]. split; [|exact S]. eapply moved_thread; eauto.
        * exists th1, y. split; [exact T1|]. split; [|exact S]. eapply moved_thread; eauto. }
  split; [|split; [exact K1|exact K2]].
  split; unfold thread_of, job_of, msg_of, srv; rewrite ?UN, ?UC.
  - exact SV.
  - pose proof (flags_conns _ _ _ _ UN N UK F) as FC. unfold srv in FC. rewrite UN in FC. exact FC.
  - exact SP.
  - exact (w_inj _ W).
  - exact (w_mid _ W).
Qed.
End At.
End Wire.
