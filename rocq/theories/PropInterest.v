(** C131: a peer is told INTERESTED and NOT_INTERESTED for a reason. *)
From Verif Require Import GoBase GoBaseProofs GoMap Bitfield BitfieldSpec PeerWire P2PServer P2PServerSpec P2PInterestSpec.
From Verif Require P2PInterestProofs PropServer.

(** ** C131 *)
(** INTERESTED goes only to a peer that, at some time before, had announced a piece that was
    not stored. *)
Theorem C131_interested_is_meant :
  forall hash id n have p l s ev m, run_of hash id n have l s ev -> In (EvSent p m) ev -> m_type m = INTERESTED ->
  exists l1 l2 s1 ev1 i, l = l1 ++ l2 /\ run_of hash id n have l1 s1 ev1 /\ announced ev1 p i /\ ~ stored_in have ev1 i.
Proof. exact P2PInterestProofs.interested_is_meant. Qed.
Print Assumptions C131_interested_is_meant.
(** When NOT_INTERESTED is sent to a peer of which every message has been handled, all that
    it has announced is stored. *)
Theorem C131_not_interested_is_meant :
  forall hash id n have p l s ev a s' e m i, run_of hash id n have l s ev -> goes_on hash id n s [a] s' e -> In (EvSent p m) e -> m_type m = NOT_INTERESTED ->
  waiting s p -> announced ev p i -> stored_in have ev i.
Proof. exact P2PInterestProofs.uninterested_is_meant. Qed.
Print Assumptions C131_not_interested_is_meant.
(** A peer that has announced a piece that is not stored, and whose messages have all been
    handled, was told INTERESTED ... *)
Theorem C131_wanted_peer_was_asked :
  forall hash id n have p l s ev i, run_of hash id n have l s ev -> waiting s p -> announced ev p i -> ~ stored_in have ev i ->
  exists m, In (EvSent p m) ev /\ m_type m = INTERESTED.
Proof. exact P2PInterestProofs.asked_once. Qed.
Print Assumptions C131_wanted_peer_was_asked.
(** ... and this is the last it was told, unless a call of Interest and one of NotInterest
    have crossed. *)
Theorem C131_wanted_peer_knows_partial :
  forall hash id n have p l s ev i, run_of hash id n have l s ev -> waiting s p -> announced ev p i -> ~ stored_in have ev i -> never_cross hash id n have l p ->
  last_word p ev = Some true.
Proof. exact P2PInterestProofs.told_interested. Qed.
Print Assumptions C131_wanted_peer_knows_partial.
(** As long as such a piece is not stored, nothing more is said about interest: a peer is not
    told back and forth, but one that was told the wrong thing is not told the right one. *)
Theorem C131_no_more_news :
  forall hash id n have p l s ev i l' s' ev', run_of hash id n have l s ev -> waiting s p -> announced ev p i -> ~ losing_interest s p ->
  goes_on hash id n s l' s' ev' -> ~ stored_in have (ev ++ ev') i -> says_nothing p ev'.
Proof. exact P2PInterestProofs.no_more_news. Qed.
Print Assumptions C131_no_more_news.

(** *** Three pieces, none stored; peers 0 and 1 *)
Notation ex3 := (run_of PropServer.ex_hash PropServer.ex_self 3 PropServer.ex_none).
Lemma ex3_runs l s ev : PropServer.ex_run l = Some (s, ev) -> ex3 l s ev.
Proof. intros H. exists PropServer.ex_none. split; [reflexivity|]. split; [reflexivity|exact H]. Qed.
Ltac run3 l := exists l; eexists; eexists; split; [apply ex3_runs; vm_compute; reflexivity|].
(** Peer 0 announces piece 0 and is told INTERESTED. *)
Definition ex_wanted : list action :=
  AAccept PropServer.ex_ip 1000 :: PropServer.ex_connect 0 PropServer.ex_a ++ AAccept PropServer.ex_ip 2000 :: PropServer.ex_connect 1 PropServer.ex_b ++
  PropServer.ex_hear 0 (mk_have 0) ++ PropServer.go 0 7.
(** Piece i comes from peer 1. *)
Definition ex_got (i : Z) : list action := PropServer.ex_hear 1 (mk_piece i 0 (bs "x")) ++ [AGo 1 (CStored true)].
(** ... then peer 0 unchokes us, and the server finds nothing to request. *)
Definition ex_bored : list action := ex_wanted ++ ex_got 0 ++ [AGo 0 (CMsg (mk_plain UNCHOKE))] ++ PropServer.go 0 3 ++ [AGo 2 COk; AGo 2 (CSort [] []); AGo 2 COk].
Definition result (l : list action) : sys * list event := match PropServer.ex_run l with Some x => x | None => (started [], []) end.
(** The peer, told NOT_INTERESTED, announces piece 1 and is told INTERESTED again. *)
Definition ex_again : list action := ex_bored ++ [AGo 2 COk; AGo 0 (CMsg (mk_have 1))] ++ PropServer.go 0 8.
Definition crossing (s : sys) : bool :=
  existsb (fun x => match x with THandler _ (HInterest _) => true | _ => false end) (s_threads s) &&
  existsb (fun x => match x with TRequester _ RNotInterested => true | _ => false end) (s_threads s).
Lemma ex3_never_cross l p : forallb (fun k => negb (crossing (fst (result (firstn k l))))) (seq 0 (S (List.length l))) = true ->
  never_cross PropServer.ex_hash PropServer.ex_self 3 PropServer.ex_none l p.
Proof.
  intros F l1 l2 s ev E (b & B & _ & R) (t & u & rest & T & U). injection B as <-. rewrite forallb_forall in F.
  specialize (F (List.length l1)). rewrite E, firstn_app, Nat.sub_diag, firstn_all, firstn_O, app_nil_r, app_length in F. unfold result, PropServer.ex_run in F. change PropServer.ex_none with [x00] in F at 1. rewrite R in F.
  cbn [fst] in F. unfold crossing in F. rewrite (proj2 (existsb_exists _ _)) in F by (eexists; split; [eapply nth_error_In; exact T|reflexivity]).
  rewrite (proj2 (existsb_exists _ _)) in F by (eexists; split; [eapply nth_error_In; exact U|reflexivity]). assert (X := F ltac:(apply in_seq; lia)). discriminate X.
Qed.
Example C131_again_case : exists l s ev, ex3 l s ev /\ waiting s 0 /\ announced ev 0 1 /\ ~ stored_in PropServer.ex_none ev 1 /\ In (EvSent 0 (mk_plain NOT_INTERESTED)) ev /\
  never_cross PropServer.ex_hash PropServer.ex_self 3 PropServer.ex_none l 0.
Proof.
  run3 ex_again. split; [exists 0%nat; reflexivity|]. split; [exists (mk_have 1); split; [PropServer.among|left; split; reflexivity]|]. split; [|split; [PropServer.among|apply ex3_never_cross; vm_compute; reflexivity]].
  intros [M|M]; [|revert M; PropServer.absent]. destruct M as (_ & x & X & Y). injection X as <-. discriminate Y.
Qed.
Example C131_case : exists l s ev, ex3 l s ev /\ waiting s 0 /\ announced ev 0 0 /\ ~ stored_in PropServer.ex_none ev 0 /\ ~ losing_interest s 0 /\ last_word 0 ev = Some true.
Proof.
  run3 ex_wanted. split; [exists 0%nat; reflexivity|]. split; [exists (mk_have 0); split; [PropServer.among|left; split; reflexivity]|]. split; [|split; [|reflexivity]].
  - intros [M|M]; [|revert M; PropServer.absent]. destruct M as (_ & x & X & Y). injection X as <-. discriminate Y.
  - intros (t & r & T & _). vm_compute in T. destruct t as [|[|[|t]]]; discriminate T.
Qed.
Example C131_not_interested_case : exists l s ev a s' e, ex3 l s ev /\ goes_on PropServer.ex_hash PropServer.ex_self 3 s [a] s' e /\ In (EvSent 0 (mk_plain NOT_INTERESTED)) e /\
  waiting s 0 /\ announced ev 0 0.
Proof.
  exists ex_bored, (fst (result ex_bored)), (snd (result ex_bored)), (AGo 2 COk). eexists. exists [EvSent 0 (mk_plain NOT_INTERESTED)].
  split; [apply ex3_runs; vm_compute; reflexivity|]. split; [exists PropServer.ex_none; split; [reflexivity|vm_compute; reflexivity]|]. split; [now left|].
  split; [exists 0%nat; vm_compute; reflexivity|exists (mk_have 0); split; [PropServer.among|left; split; reflexivity]].
Qed.

(** Everyone waits for messages: nothing happens until a peer sends something. *)
Definition at_rest (s : sys) : Prop := s_mu s = None /\ forall th, In th (s_threads s) -> th = TDone \/ exists p, th = THandler p HReceive.
(** What is missing.  Peer 0 announces piece 1 too.  Before the handler calls Interest, the
    piece arrives from peer 1; NotInterest, called meanwhile, sets the flag; Interest sets it
    again and sends INTERESTED; NotInterest sends NOT_INTERESTED.  The peer, told that we are
    not interested, chokes us and later announces piece 2.  The flag says that it knows. *)
Definition ex_crossed : list action :=
  ex_wanted ++ ex_got 0 ++ [AGo 0 (CMsg (mk_plain UNCHOKE))] ++ PropServer.go 0 2 ++ PropServer.ex_hear 0 (mk_have 1) ++ PropServer.go 0 4 ++ ex_got 1 ++
  [AGo 2 COk; AGo 2 (CSort [] []); AGo 2 COk] ++ PropServer.go 0 2 ++ [AGo 2 COk] ++
  PropServer.ex_hear 0 (mk_plain CHOKE) ++ PropServer.ex_hear 0 (mk_have 2) ++ PropServer.go 0 6 ++ [AGo 1 COk].
Theorem C131_wanted_peer_knows_refuted :
  exists l s ev, ex3 l s ev /\ waiting s 0 /\ announced ev 0 2 /\ ~ stored_in PropServer.ex_none ev 2 /\ last_word 0 ev = Some false /\ at_rest s.
Proof.
  run3 ex_crossed. split; [exists 0%nat; reflexivity|]. split; [exists (mk_have 2); split; [PropServer.among|left; split; reflexivity]|]. split; [|split; [reflexivity|]].
  - intros [M|M]; [|revert M; PropServer.absent]. destruct M as (_ & x & X & Y). injection X as <-. discriminate Y.
  - split; [reflexivity|]. intros th I. repeat (destruct I as [<-|I]; [first [left; reflexivity|right; eexists; reflexivity]|]). destruct I.
Qed.
Print Assumptions C131_wanted_peer_knows_refuted.
(** And a peer that chokes us is not told when there is nothing left to get from it. *)
Theorem C131_unwanted_peer_knows_refuted :
  exists l s ev, ex3 l s ev /\ waiting s 0 /\ (forall i, announced ev 0 i -> stored_in PropServer.ex_none ev i) /\ last_word 0 ev = Some true /\ at_rest s.
Proof.
  run3 (ex_wanted ++ ex_got 0 ++ [AGo 1 COk]). split; [exists 0%nat; reflexivity|]. split; [|split; [reflexivity|]].
  - intros i (m & I & A). right. vm_compute in I. repeat (destruct I as [I|I]; [try discriminate I|]); [|destruct I]. injection I as <-.
    destruct A as [[_ <-]|[A _]]; [PropServer.among|discriminate A].
  - split; [reflexivity|]. intros th I. repeat (destruct I as [<-|I]; [first [left; reflexivity|right; eexists; reflexivity]|]). destruct I.
Qed.
Print Assumptions C131_unwanted_peer_knows_refuted.
