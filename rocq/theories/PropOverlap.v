(** C129: announces that overlap.

    [new_share tiers] is a Multitracker with these tiers and no call yet; [gruns s l] is a
    history from s: calls begin and go on in any order (TrackerShare.v).  [asks], [only] and
    [gone] are in TrackerShareSpec.v, [promoted] in MultitrackerSpec.v. *)
From Verif Require Import GoBase BencTypes Multitracker MultitrackerSpec TrackerShare TrackerShareSpec TrackerShareProofs Lifecycle.
From Verif Require PropLifecycle.

(** ** What holds however calls overlap *)
(** A tier keeps its length and gets no tracker that it did not have.  Missing: it may lose
    one ([C129_lost_tracker_refuted]). *)
Theorem C129_tiers_keep_their_trackers_partial :
  forall (T R E : Type) tiers l (s : share T R E) ev, gruns (new_share tiers) l = Some (s, ev) ->
  Forall2 (fun before after => List.length after = List.length before /\ incl after before) tiers (sh_tiers s).
Proof. intros T R E. exact tiers_keep. Qed.
Print Assumptions C129_tiers_keep_their_trackers_partial.
(** A call asks at most as often as there are trackers, and until it returns it can go on. *)
Theorem C129_calls_are_bounded :
  forall (T R E : Type) tiers l (s : share T R E) ev k, gruns (new_share tiers) l = Some (s, ev) ->
  (List.length (asks k ev) <= List.length (concat tiers))%nat /\
  forall p, nth_error (sh_calls s) k = Some p -> (forall g, p <> GReturned g) -> forall o, exists s' e, gexec s (GStep k o) = Some (s', e).
Proof. intros T R E tiers l s ev k H. split; [exact (asks_bounded _ _ _ _ _ H)|]. intros p K N o. exact (never_stuck _ _ _ _ _ _ H K N o). Qed.
Print Assumptions C129_calls_are_bounded.
(** A response is returned only if a tracker has answered this call, an error only if none has
    and at least one was asked. *)
Theorem C129_outcomes :
  forall (T R E : Type) tiers l (s : share T R E) ev k g, gruns (new_share tiers) l = Some (s, ev) -> nth_error (sh_calls s) k = Some (GReturned g) ->
  match g with
  | GotRes r => exists t, In (EOk k t) ev
  | GotErr e => asks k ev <> [] /\ forall t, ~ In (EOk k t) ev
  | GotNothing => asks k ev = []
  end.
Proof. intros T R E. exact outcomes. Qed.
Print Assumptions C129_outcomes.
(** As long as the first tracker answers, every call succeeds, asks nobody else and leaves
    the tiers alone. *)
Theorem C129_first_tracker_answers :
  forall (T R E : Type) t ts rest l (s : share T R E) ev, gruns (new_share ((t :: ts) :: rest)) l = Some (s, ev) -> (forall k, ~ In (EFail k t) ev) ->
  sh_tiers s = (t :: ts) :: rest /\ (forall k x, In (EAsk k x) ev -> x = t) /\ (forall k g, In (ERet k g) ev -> exists r, g = GotRes r).
Proof. intros T R E. exact first_answers. Qed.
Print Assumptions C129_first_tracker_answers.
(** A call during which no other call takes a step does what C48 says, in whatever state
    the others have left the tiers. *)
Theorem C129_undisturbed_call :
  forall (T R E : Type) (s0 : share T R E) l s ev g, let k := List.length (sh_calls s0) in
  gruns s0 (GCall :: l) = Some (s, ev) -> only k l -> nth_error (sh_calls s) k = Some (GReturned g) ->
  (exists before x r, promoted (sh_tiers s0) before x (sh_tiers s) /\ asks k ev = before ++ [x] /\ g = GotRes r) \/
  (asks k ev = concat (sh_tiers s0) /\ sh_tiers s = sh_tiers s0 /\ match concat (sh_tiers s0) with [] => g = GotNothing | _ => exists e, g = GotErr e end).
Proof. intros T R E s0 l s ev g k. exact (alone_outcome s0 l s ev g). Qed.
Print Assumptions C129_undisturbed_call.

(** ** What overlapping calls lose *)
(** Both trackers are listed once; the first has failed twice, the second has answered twice.
    No failure of the second is involved, and yet the first is gone from the tiers. *)
Definition overlap_lost : list (gaction nat unit) :=
  [GCall; GCall; GStep 0 (inr tt); GStep 0 (inr tt); GStep 0 (inr tt);                          (* call 0: 1 fails, 2 is asked *)
   GStep 1 (inr tt); GStep 1 (inr tt); GStep 1 (inr tt); GStep 1 (inl 7); GStep 1 (inr tt); GStep 1 (inr tt);  (* call 1: 1 fails, 2 answers *)
   GStep 0 (inl 8); GStep 0 (inr tt); GStep 0 (inr tt)]%nat.                                    (* call 0: 2 answers *)
Theorem C129_lost_tracker_refuted :
  exists tiers l (s : share nat nat unit) ev t, gruns (new_share tiers) l = Some (s, ev) /\ NoDup (concat tiers) /\ In t (concat tiers) /\
  (forall p, In p (sh_calls s) -> exists r, p = GReturned (GotRes r)) /\ gone s t.
Proof.
  exists [[1; 2]]%nat, overlap_lost, {| sh_tiers := [[2; 2]]; sh_calls := [GReturned (GotRes 8); GReturned (GotRes 7)] |}%nat,
    [EAsk 0 1; EFail 0 1; EAsk 0 2; EAsk 1 1; EFail 1 1; EAsk 1 2; EOk 1 2; ERet 1 (GotRes 7); EOk 0 2; ERet 0 (GotRes 8)]%nat, 1%nat.
  split; [reflexivity|]. split; [repeat constructor; cbn; intuition lia|]. split; [now left|].
  split; [intros p [<-|[<-|[]]]; eauto|]. split; [intros tier [<-|[]]; cbn; intuition lia|intros p [<-|[<-|[]]]; exact I].
Qed.
Print Assumptions C129_lost_tracker_refuted.
(** And what is gone is never asked again. *)
Theorem C129_lost_is_forever :
  forall (T R E : Type) t (s : share T R E) l s' ev, gone s t -> gruns s l = Some (s', ev) -> gone s' t /\ forall k, ~ In (EAsk k t) ev.
Proof. intros T R E. exact gone_forever. Qed.
Print Assumptions C129_lost_is_forever.
(** A call returns an error although one of the trackers has answered every request of every
    call: it has asked the other one twice. *)
Definition overlap_skipped : list (gaction nat unit) :=
  [GCall; GCall; GStep 0 (inr tt);                                                              (* call 0 asks 1 *)
   GStep 1 (inr tt); GStep 1 (inr tt); GStep 1 (inr tt); GStep 1 (inl 7); GStep 1 (inr tt); GStep 1 (inr tt);  (* call 1: 1 fails, 2 answers *)
   GStep 0 (inr tt); GStep 0 (inr tt); GStep 0 (inr tt); GStep 0 (inr tt); GStep 0 (inr tt)]%nat.  (* call 0: 1 fails, 1 fails *)
Theorem C129_skipped_tracker_refuted :
  exists tiers l (s : share nat nat unit) ev k t, gruns (new_share tiers) l = Some (s, ev) /\ NoDup (concat tiers) /\ In t (concat tiers) /\
  nth_error (sh_calls s) k = Some (GReturned (GotErr tt)) /\ (forall k', ~ In (EFail k' t) ev) /\ ~ In t (asks k ev) /\ ~ NoDup (asks k ev).
Proof.
  exists [[1; 2]]%nat, overlap_skipped, {| sh_tiers := [[2; 1]]; sh_calls := [GReturned (GotErr tt); GReturned (GotRes 7)] |}%nat,
    [EAsk 0 1; EAsk 1 1; EFail 1 1; EAsk 1 2; EOk 1 2; ERet 1 (GotRes 7); EFail 0 1; EAsk 0 1; EFail 0 1; ERet 0 (GotErr tt)]%nat, 0%nat, 2%nat.
  split; [reflexivity|]. split; [repeat constructor; cbn; intuition lia|]. split; [right; now left|].
  split; [reflexivity|]. split; [intros k' I; cbn in I; repeat (destruct I as [I|I]; try discriminate I); exact I|]. split; [cbn; intuition lia|].
  intros N. cbn in N. inversion N as [|? ? A _]. apply A. now left.
Qed.
Print Assumptions C129_skipped_tracker_refuted.

(** ** Non-vacuity *)
(** Two calls overlap; the first tracker answers both. *)
Example C129_first_tracker_case : exists s ev,
  gruns (@new_share nat nat unit [[1; 2]; [3]]%nat) [GCall; GStep 0 (inr tt); GCall; GStep 1 (inr tt); GStep 1 (inl 7); GStep 0 (inl 8); GStep 1 (inr tt); GStep 0 (inr tt); GStep 1 (inr tt); GStep 0 (inr tt)]%nat = Some (s, ev) /\
  (forall k, ~ In (EFail k 1%nat) ev) /\ sh_calls s = [GReturned (GotRes 8); GReturned (GotRes 7)]%nat.
Proof.
  exists {| sh_tiers := [[1; 2]; [3]]; sh_calls := [GReturned (GotRes 8); GReturned (GotRes 7)] |}%nat, [EAsk 0 1; EAsk 1 1; EOk 1 1; EOk 0 1; ERet 1 (GotRes 7); ERet 0 (GotRes 8)]%nat.
  split; [reflexivity|]. split; [|reflexivity]. intros k I. cbn in I. repeat (destruct I as [I|I]; try discriminate I). exact I.
Qed.
(** A call alone while another waits for its tracker. *)
Example C129_undisturbed_case : exists s0 ev0 s ev,
  gruns (@new_share nat nat unit [[1; 2]; [3]]%nat) [GCall; GStep 0 (inr tt)]%nat = Some (s0, ev0) /\
  gruns s0 (GCall :: [GStep 1 (inr tt); GStep 1 (inr tt); GStep 1 (inr tt); GStep 1 (inl 7); GStep 1 (inr tt); GStep 1 (inr tt)]%nat) = Some (s, ev) /\
  nth_error (sh_calls s) (List.length (sh_calls s0)) = Some (GReturned (GotRes 7%nat)) /\ asks 1 ev = [1; 2]%nat /\ sh_tiers s = [[2; 1]; [3]]%nat.
Proof.
  exists {| sh_tiers := [[1; 2]; [3]]; sh_calls := [GAsked 0 0 1] |}%nat, [EAsk 0 1]%nat, {| sh_tiers := [[2; 1]; [3]]; sh_calls := [GAsked 0 0 1; GReturned (GotRes 7)] |}%nat,
    [EAsk 1 1; EFail 1 1; EAsk 1 2; EOk 1 2; ERet 1 (GotRes 7)]%nat.
  repeat split.
Qed.
(** In a server the two calls are the announcing loop and Stop: there is a history in which
    both are waiting for their trackers. *)
Example C129_overlap_in_a_server : exists s ev,
  lruns fresh_server (PropLifecycle.ex_up ++ [ALoop 4; ACallStop; ASStep 0]%nat) = Some (s, ev) /\ In (LAnnounce, LCall) (li_loops s) /\ In STell (li_stops s).
Proof. eexists _, _. split; [vm_compute; reflexivity|]. split; cbn; tauto. Qed.
