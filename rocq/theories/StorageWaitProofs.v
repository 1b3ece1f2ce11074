(** Waiting for a piece or the torrent: who waits is not forgotten. *)
From Verif Require Import GoBase GoBaseProofs Metainfo MetainfoSpec
  Fs Storage StorageSys StorageSpec StorageSysSpec StorageMemSpec StorageWaitSpec StorageFsProofs StorageIoProofs StorageProofs StorageLoadProofs StorageSysProofs StorageClaimProofs StorageMoreProofs.

Section Wait.
Variable sha1 : bytes -> bytes.
Variable cfg : config.
Variable env : nat -> choice.
Hypothesis ok : config_ok cfg.
Notation exec := (StorageSys.exec sha1 cfg env).
Notation execs := (StorageSys.execs sha1 cfg env).
Notation i := (c_info cfg).
Notation n := (num_pieces i).
Notation returns_next := (StorageWaitSpec.returns_next sha1 cfg env).
Notation inv := (StorageSysProofs.inv sha1 cfg).
Notation PI := (StorageProofs.PI sha1 cfg).

(** GetBlock leaves the disk alone. *)
Definition still {A} (a : io A) : Prop := forall w, w_fs (fst (a w)) = w_fs w.
Lemma still_bind {A B} (a : io A) (g : A -> io B) : still a -> (forall x, still (g x)) -> still (bind a g).
Proof. intros Ha Hg w. unfold bind. specialize (Ha w). destruct (a w) as [w1 [x|e|]]; cbn in *; [rewrite Hg|..]; exact Ha. Qed.
Lemma get_block_fs k b len : still (get_block cfg env k b len).
Proof.
  assert (KO : forall p, still (open_file env p)) by (intros p w; reflexivity).
  assert (KM : forall files total start fin got, still (get_multi_loop cfg env files total start fin len got)).
  { induction files as [|f files IH]; intros; cbn [get_multi_loop]; [intros w; reflexivity|]. destruct (_ <=? _); [intros w; reflexivity|]. destruct (_ <=? _); [|apply IH].
    apply still_bind; [apply KO|intros d]. destruct (_ <? 0); [intros w; reflexivity|apply IH]. }
  unfold get_block. apply still_bind; [intros w; reflexivity|intros m]. destruct (t_coalesced m).
  - destruct (i_files _).
    + apply still_bind; [apply KO|intros d]. destruct (negb _); [intros w; reflexivity|]. cbn zeta. destruct (_ <? 0); [intros w; reflexivity|]. destruct (read_at _ _ _) as [x []]; intros w; reflexivity.
    + unfold get_from_multi. destruct (negb _); [intros w; reflexivity|]. cbn zeta. apply still_bind; [apply KM|intros d]. destruct (_ <? _); intros w; reflexivity.
  - apply still_bind; [intros w; unfold piece_at, bind, get_mem; destruct (if k <? 0 then _ else _); reflexivity|intros p]. destruct (negb _); [intros w; reflexivity|]. unfold get_from_piece.
    apply still_bind; [apply KO|intros d]. destruct (negb _); [intros w; reflexivity|]. destruct (_ <? 0); [intros w; reflexivity|]. destruct (read_at _ _ _) as [x []]; intros w; reflexivity.
Qed.

(** The second half of PutBlock, once more: an error leaves the piece's future delivered,
    and the content appears only with the torrent marked complete or an I/O error. *)
Lemma put_finish_more busy f0 k p w w' r : PI busy f0 w -> nth_error (t_pieces (w_mem w)) k = Some p -> busy (Z.of_nat k) = true ->
  put_finish sha1 cfg env (Z.of_nat k) w = (w', r) ->
  (forall e, r = Err e -> exists v, nth_error (t_futures (w_mem w')) (pc_err p) = Some (Some v)) /\
  (content cfg (w_fs w') <> None -> (r = Ok tt /\ t_coalesced (w_mem w') = true) \/ r = Err EIO) /\
  (t_pieces (w_mem w') = t_pieces (w_mem w) \/ t_pieces (w_mem w') = list_set k (done_piece p) (t_pieces (w_mem w))).
Proof using ok.
  intros P Hk Hb E. pose proof (PI_St sha1 cfg env ok _ _ _ P) as S. pose proof P as ([F X] & _ & M). pose proof M as (MI & MA & MC). pose proof MI as (M1 & M2 & _).
  pose proof (M2 _ _ Hk) as PO. pose proof PO as (P1 & P2 & P3 & P4 & P5 & P6 & P7 & P8 & P9). destruct (P6 Hb) as [Pc Pb].
  pose proof (piece_bound sha1 cfg env ok _ _ _ _ MI Hk) as Hkn.
  destruct (incomplete_absent sha1 cfg env ok _ _ _ _ _ F M Hk Pc) as (Ho & Hcn & Ht & Hp & Htc).
  destruct (pc_blocks p) as [l|] eqn:Hl; [|congruence]. pose proof E as E0. unfold put_finish in E.
  destruct (Z.eq_dec (pc_complete p) (zlen l)) as [Hc|Hc].
  - assert (Hfull : full p) by (exists l; auto).
    destruct (full_data sha1 cfg env ok (t_futures (w_mem w)) (busy (Z.of_nat k)) k p l) as (data & Hd & Hs); auto.
    destruct (coalesce_blocks sha1 cfg env (Z.of_nat k) w) as [w1 r1] eqn:E1.
    eapply (t_coalesce_full sha1 cfg env ok) in E1; eauto. destruct r1 as [u1|e1|]; cbn in E1; [| |easy].
    + destruct E1 as (Hh & f2 & b & S1 & MI2 & L1 & T1 & T2 & T3 & X2).
      assert (MO2 : mem_ok cfg (free busy (Z.of_nat k)) f2 (m_piece_done k p b (w_mem w))) by (eapply (mem_ok_piece_done sha1 cfg env ok); eauto).
      destruct (coalesce_pieces_spec sha1 cfg env ok _ _ _ _ _ _ _ S1 MO2 T1 E) as (R1 & R2 & R3 & R4 & R5 & Rd & R6 & R7).
      assert (Hf : nth_error (t_futures (w_mem w)) (pc_err p) = Some None) by (apply P8; auto). split; [|split; [|right; rewrite R5; reflexivity]].
      * intros e _. exists None. apply R3. cbn. eapply list_set_same_len; eauto.
      * intros C. destruct (Z.eq_dec (t_complete (m_piece_done k p b (w_mem w))) (zlen (t_pieces (m_piece_done k p b (w_mem w))))) as [Ha|Ha].
        -- specialize (R7 Ha). destruct r as [[]|e|]; [left; split; [reflexivity|apply R7]|right; now rewrite R7|easy].
        -- exfalso. destruct (R6 Ha) as [-> ->]. apply C. destruct S1 as (_ & _ & _ & Q). rewrite (quiet_content cfg _ _ Q). now apply (content_target_none cfg).
    + destruct E1 as [S1 He]. pose proof S1 as (T1 & T2 & T3 & T4).
      assert (Hf : nth_error (t_futures (w_mem w)) (pc_err p) = Some None) by (apply P8; auto).
      unfold bind at 1 in E. rewrite (piece_at_in sha1 cfg env ok k p) in E by (now rewrite T3).
      unfold add_downloaded, deliver, bind, get_mem, set_mem, fails in E. cbn in E. rewrite T3, Hf in E. injection E as <- <-. split; [|split; [|left; reflexivity]].
      * intros e _. cbn. exists (Some e1). eapply list_set_same_len; eauto.
      * cbn. intros C. exfalso. apply C. rewrite (quiet_content cfg _ _ T4). exact Hcn.
  - assert (Hnf : ~ full p) by (intros (l' & E' & Hc'); congruence).
    destruct (put_finish_spec sha1 cfg env ok _ _ _ _ _ _ _ P Hk Hb E0) as (_ & _ & _ & _ & _ & NF & _). destruct (NF Hnf) as [-> ->].
    split; [easy|]. split; [intros C; now elim C|now left].
Qed.

(** ** Pieces *)
Lemma ends_delivers base w ts j w' ts' es k e p : inv base (Running w ts) -> exec (Running w ts) (LStep j) = Some (Running w' ts', es) -> In e es -> ends k e ->
  nth_error (t_pieces (w_mem w)) (Z.to_nat k) = Some p -> exists v, nth_error (t_futures (w_mem w')) (pc_err p) = Some (Some v).
Proof using ok.
  intros I E R En Hp. apply step_shape in E as (t & o & T & N & E). destruct o as [w1 q|w1]; destruct E as [E ->]; [|discriminate E]. injection E as -> ->.
  destruct q; cbn in R; try contradiction. destruct R as [<-|[]]. pose proof (proj2 (proj2 (proj2 I)) _ _ T) as TO. unfold next in N. unfold thread_ok in TO.
  destruct (th_call t) as [k' b d|k' b len|k'|k'|] eqn:Ec; try contradiction En.
  - destruct r as [| |x]; try contradiction En. destruct En as [-> FX].
    destruct (th_pc t) eqn:Ep; try discriminate N; try contradiction TO; cbn [w_mem forget_past] in N.
    + exfalso. destruct (check_block_size _ _ _ _) eqn:CB; [injection N as _ N; subst|destruct (t_coalesced _); [injection N as _ N; subst; destruct FX as [X|(? & ? & ? & X)]; discriminate|discriminate N]].
      unfold check_block_size in CB. destruct FX as [->|(? & ? & ? & ->)]; repeat match type of CB with context [if ?c then _ else _] => destruct c; try discriminate CB end.
    + exfalso. destruct (piece_locked k ts); [discriminate|]. destruct (put_in_piece k b d (forget_past w)) as [w2 [u|y|]] eqn:PP; try discriminate N. injection N as _ ->.
      unfold put_in_piece, bind at 1 in PP. destruct (piece_at k (forget_past w)) as [w3 [p'|y|]] eqn:PA; [|unfold piece_at, bind, get_mem in PA; destruct (if k <? 0 then _ else _); discriminate|discriminate].
      destruct (pc_coalesced p'); [injection PP as _ <-; destruct FX as [X|(? & ? & ? & X)]; discriminate|]. destruct (match pc_blocks p' with Some l => _ | None => _ end); [|discriminate].
      destruct (if _ <? 0 then None else _) as [[|]|]; try discriminate. injection PP as _ <-. destruct FX as [X|(? & ? & ? & X)]; discriminate.
    + destruct TO as [K TI]. destruct (torrent_rlocked ts); [discriminate|]. injection N as N. destruct (put_finish sha1 cfg env k (forget_past w)) as [w2 r] eqn:PF.
      destruct r as [u|y|]; try discriminate N. cbn in N. injection N as -> ->. destruct I as (HJ & HM & _). cbn [disk_of] in HJ.
      assert (P0 : PI (fun k => piece_locked k ts) base (forget_past w)) by (split; [exact HJ|]; split; [constructor|exact HM]).
      assert (piece_locked k ts = true) as PL by (apply piece_locked_iff; exists j, t; rewrite Ec; auto).
      rewrite <- (Z2Nat.id k) in PF by lia. assert (piece_locked (Z.of_nat (Z.to_nat k)) ts = true) as PL' by (rewrite Z2Nat.id by lia; exact PL).
      destruct (put_finish_more _ base _ p _ _ _ P0 Hp PL' PF) as [D _]. now apply (D x).
  - destruct r; try contradiction En. cbn in En. subst k'.
    destruct (th_pc t) eqn:Ep; try discriminate N; try contradiction TO.
    destruct (piece_locked k ts); [discriminate|]. injection N as N. destruct (reset_piece k (forget_past w)) as [w2 r] eqn:RP. apply reset_piece_mem in RP as [_ RP].
    destruct r; try discriminate N. cbn in N. injection N as ->. destruct RP as (p' & _ & Hp' & Fu & _). cbn [w_mem forget_past] in Hp', Fu. assert (p' = p) as -> by congruence.
    destruct I as (_ & ((_ & MP & _) & _) & _). pose proof (MP _ _ Hp) as (_ & _ & _ & _ & _ & _ & P7 & P8 & P9).
    exists (Some EReset). rewrite Fu. assert (L : (pc_err p < List.length (t_futures (w_mem w)))%nat).
    { apply nth_error_Some. destruct (pc_coalesced p) eqn:C; [rewrite P7 by reflexivity; discriminate|]. intros X.
      assert (~ full p \/ full p) as [G|G].
      { destruct (pc_blocks p) as [l|] eqn:B; [destruct (Z.eq_dec (pc_complete p) (zlen l)) as [Q|Q]|]; [right; exists l; auto|left; intros (l' & B' & Q'); congruence|left; intros (l' & B' & _); congruence]. }
      - rewrite P8 in X; [discriminate|reflexivity|intros; contradiction].
      - destruct (piece_locked (Z.of_nat (Z.to_nat k)) ts) eqn:PL; [rewrite P8 in X; [discriminate|reflexivity|reflexivity]|]. destruct (P9 eq_refl G eq_refl) as [e' X']. congruence. }
    rewrite nth_error_app1 by (now rewrite list_set_length). now apply list_set_nth_eq.
Qed.

Lemma delivered_returns w ts j c id v : nth_error ts j = Some {| th_call := c; th_pc := Waiting id |} -> nth_error (t_futures (w_mem w)) id = Some (Some v) ->
  returns_next (Running w ts) j c (match v with None => RNil | Some e => RErr e end).
Proof. intros T F. unfold returns_next. cbn [StorageSys.exec]. rewrite T. unfold next. cbn [th_pc th_call w_mem forget_past]. rewrite F. destruct v; eexists; reflexivity. Qed.

Lemma stored_waiter f tick ls w ts es j k id : untouched cfg f -> execs (Dead f tick) ls = Some (Running w ts, es) ->
  nth_error ts j = Some {| th_call := CWait k; th_pc := Waiting id |} -> on_disk cfg (w_fs w) k <> None ->
  returns_next (Running w ts) j (CWait k) RNil \/ returns_next (Running w ts) j (CWait k) (RErr EReset).
Proof using ok.
  intros U E T D. pose proof (execs_inv sha1 cfg env ok _ _ _ _ _ U E) as I. pose proof (waiting_run sha1 cfg env ok _ _ _ _ _ U E) as W.
  destruct (W _ _ _ _ T eq_refl eq_refl) as (q & Q & K & [<-|F]); [|right; exact (delivered_returns _ _ _ _ _ _ T F)]. left.
  destruct I as (_ & (MI & MA & _) & _). destruct MI as (_ & MP & _). destruct (MP _ _ Q) as (_ & _ & _ & _ & _ & _ & P7 & _).
  assert (C : pc_coalesced q = true). { apply (MA _ _ Q). now rewrite Z2Nat.id by lia. }
  exact (delivered_returns _ _ _ _ _ _ T (P7 C)).
Qed.

(** Once the future someone waits for is delivered, it stays so until they return. *)
Definition released (j : nat) (c : call) (p : proc) : Prop :=
  match p with
  | Running w ts => exists t, nth_error ts j = Some t /\ th_call t = c /\
      ((exists r, th_pc t = Done r) \/ exists id v, th_pc t = Waiting id /\ nth_error (t_futures (w_mem w)) id = Some (Some v))
  | Dead _ _ => False
  end.
Lemma released_step base p j c l p' es : inv base p -> released j c p -> exec p l = Some (p', es) -> match p' with Running _ _ => released j c p' | Dead _ _ => True end.
Proof using ok.
  intros I R E. destruct p' as [w' ts'|]; [|exact Logic.I]. destruct p as [w ts|]; [|destruct R]. destruct R as (t & T & <- & R).
  destruct l as [c'|a| |a x| |]; try discriminate E.
  - injection E as <- <- <-. exists t. split; [|split; [reflexivity|exact R]]. rewrite nth_error_app1; [exact T|]. apply nth_error_Some. congruence.
  - pose proof (exec_later_step sha1 cfg env ok _ _ _ _ _ _ E _ I) as (_ & _ & L & _).
    apply step_shape in E as (t' & o & T' & N & E). destruct o as [w1 q|w1]; destruct E as [E ->]; [|discriminate E]. injection E as -> ->.
    destruct (Nat.eq_dec a j) as [->|NE].
    + assert (t' = t) as -> by congruence. exists {| th_call := th_call t; th_pc := q |}. split; [eapply list_set_same_len; eauto|]. split; [reflexivity|]. cbn. left.
      unfold next in N. destruct R as [[r R]|(id & v & R & V)]; rewrite R in N; [discriminate N|]. cbn [w_mem forget_past] in N. rewrite V in N. destruct (th_call t), v; injection N as _ <-; eauto.
    + exists t. split; [now rewrite list_set_nth_neq|]. split; [reflexivity|]. destruct R as [R|(id & v & R & V)]; [now left|]. right. exists id, v. split; [exact R|]. now apply L.
  - cbn in E. destruct (nth_error ts a); [|discriminate]. destruct (next _ _ _ _ _ _); [|discriminate]. unfold crash_at, option_map in E. destruct (nth_error (w_past _) _); discriminate E.
Qed.
Definition waits (j : nat) (c : call) (p : proc) : Prop :=
  match p with Running w ts => exists t id, nth_error ts j = Some t /\ th_call t = c /\ th_pc t = Waiting id | Dead _ _ => False end.
Lemma waits_step base p j c l p' es : inv base p -> waits j c p -> exec p l = Some (p', es) -> match p' with Running _ _ => waits j c p' \/ released j c p' | Dead _ _ => True end.
Proof using ok.
  intros I R E. destruct p' as [w' ts'|]; [|exact Logic.I]. destruct p as [w ts|]; [|destruct R]. destruct R as (t & id & T & <- & R).
  destruct l as [c'|a| |a x| |]; try discriminate E.
  - left. injection E as <- <- <-. exists t, id. split; [|split; [reflexivity|exact R]]. rewrite nth_error_app1; [exact T|]. apply nth_error_Some. congruence.
  - apply step_shape in E as (t' & o & T' & N & E). destruct o as [w1 q|w1]; destruct E as [E ->]; [|discriminate E]. injection E as -> ->.
    destruct (Nat.eq_dec a j) as [->|NE].
    + assert (t' = t) as -> by congruence. right. exists {| th_call := th_call t; th_pc := q |}. split; [eapply list_set_same_len; eauto|]. split; [reflexivity|]. cbn. left.
      unfold next in N. rewrite R in N. destruct (nth_error _ id) as [[[|]|]|]; destruct (th_call t); try discriminate N; injection N as _ <-; eauto.
    + left. exists t, id. split; [now rewrite list_set_nth_neq|]. auto.
  - cbn in E. destruct (nth_error ts a); [|discriminate]. destruct (next _ _ _ _ _ _); [|discriminate]. unfold crash_at, option_map in E. destruct (nth_error (w_past _) _); discriminate E.
Qed.
Lemma dead_stays ls : forall f tick p es, Forall same_run ls -> execs (Dead f tick) ls = Some (p, es) -> p = Dead f tick.
Proof. destruct ls as [|l ls]; cbn; intros f tick p es S E; [now injection E as <- <-|]. inversion S; subst. destruct l; try contradiction; discriminate E. Qed.
Lemma released_runs base j c ls : forall p p' es, inv base p -> released j c p -> Forall same_run ls -> execs p ls = Some (p', es) -> match p' with Running _ _ => released j c p' | Dead _ _ => True end.
Proof using ok.
  induction ls as [|l ls IH]; cbn [StorageSys.execs]; intros p p' es I R S E.
  - injection E as <- <-. destruct p; [exact R|exact Logic.I].
  - inversion S; subst. destruct (exec p l) as [[p1 e1]|] eqn:E1; [|discriminate]. destruct (execs p1 ls) as [[p2 e2]|] eqn:E2; [|discriminate]. injection E as <- <-.
    pose proof (released_step _ _ _ _ _ _ _ I R E1) as R1. destruct p1 as [w1 ts1|f1 k1].
    + eapply IH; [exact (proj1 (exec_ok sha1 cfg env ok _ _ _ _ _ I E1))|exact R1|assumption|exact E2].
    + apply dead_stays in E2 as ->; [exact Logic.I|assumption].
Qed.
Lemma ended_step base p j k l p' es e : inv base p -> waits j (CWait k) p -> exec p l = Some (p', es) -> In e es -> ends k e -> match p' with Running _ _ => released j (CWait k) p' | Dead _ _ => True end.
Proof using ok.
  intros I W E Ie En. destruct p' as [w' ts'|]; [|exact Logic.I]. destruct p as [w ts|]; [|destruct W].
  destruct l as [c'|a| |a x| |]; try discriminate E; [injection E as <- <- <-; destruct Ie| |].
  2:{ cbn in E. destruct (nth_error ts a); [|discriminate]. destruct (next _ _ _ _ _ _); [|discriminate]. unfold crash_at, option_map in E. destruct (nth_error (w_past _) _); discriminate E. }
  destruct (waits_step _ _ _ _ _ _ _ I W E) as [W'|R]; [|exact R]. destruct W as (t & id & T & C & P).
  pose proof (proj2 (proj2 (proj2 I)) _ _ T) as TO. unfold thread_ok in TO. rewrite C, P in TO. destruct TO as (q & Q & K & TO).
  destruct W' as (t' & id' & T' & C' & P'). exists t'. split; [exact T'|]. split; [exact C'|]. right.
  assert (id' = id) as ->. { apply step_shape in E as (u & o & Tu & N & E). destruct o as [w1 q1|w1]; destruct E as [E _]; [|discriminate E]. injection E as -> ->.
    apply nth_error_list_set in T' as [(-> & -> & _)|[NE T']]; [|congruence]. assert (u = t) as -> by congruence. cbn in P'. subst q1. unfold next in N. rewrite P in N.
    destruct (nth_error _ id) as [[[|]|]|]; destruct (th_call t); discriminate N. }
  exists id. destruct TO as [<-|[x F]].
  - destruct (ends_delivers _ _ _ _ _ _ _ _ _ _ I E Ie En Q) as [v V]. eauto.
  - exists (Some x). split; [exact P'|]. now apply (exec_later_step sha1 cfg env ok _ _ _ _ _ _ E _ I).
Qed.
Lemma ended_runs base j k e ls : forall p p' es, inv base p -> waits j (CWait k) p -> Forall same_run ls -> execs p ls = Some (p', es) -> In e es -> ends k e ->
  match p' with Running _ _ => released j (CWait k) p' | Dead _ _ => True end.
Proof using ok.
  induction ls as [|l ls IH]; cbn [StorageSys.execs]; intros p p' es I W S E Ie En.
  - injection E as <- <-. destruct Ie.
  - inversion S; subst. destruct (exec p l) as [[p1 e1]|] eqn:E1; [|discriminate]. destruct (execs p1 ls) as [[p2 e2]|] eqn:E2; [|discriminate]. injection E as <- <-.
    pose proof (proj1 (exec_ok sha1 cfg env ok _ _ _ _ _ I E1)) as I1. destruct p1 as [w1 ts1|f1 k1].
    2:{ apply dead_stays in E2 as ->; [exact Logic.I|assumption]. }
    pose proof (waits_step _ _ _ _ _ _ _ I W E1) as W1. apply in_app_iff in Ie as [Ie|Ie].
    + pose proof (ended_step _ _ _ _ _ _ _ _ I W E1 Ie En) as R. eapply released_runs; eassumption.
    + destruct W1 as [W1|R1]; [eapply IH; eassumption|eapply released_runs; eassumption].
Qed.
(** After a ResetPiece or a failing PutBlock, whoever waited has returned or returns next. *)
Lemma ended_waiter f tick ls w ts es j k id ls2 w2 ts2 es2 e : untouched cfg f -> execs (Dead f tick) ls = Some (Running w ts, es) ->
  nth_error ts j = Some {| th_call := CWait k; th_pc := Waiting id |} -> Forall same_run ls2 -> execs (Running w ts) ls2 = Some (Running w2 ts2, es2) -> In e es2 -> ends k e ->
  (exists r, nth_error ts2 j = Some {| th_call := CWait k; th_pc := Done r |}) \/ exists r, returns_next (Running w2 ts2) j (CWait k) r.
Proof using ok.
  intros U E T S E2 Ie En. pose proof (execs_inv sha1 cfg env ok _ _ _ _ _ U E) as I.
  assert (W : waits j (CWait k) (Running w ts)) by (exists {| th_call := CWait k; th_pc := Waiting id |}, id; auto).
  destruct (ended_runs _ _ _ _ _ _ _ _ I W S E2 Ie En) as ([c q] & T' & C & [[r R]|(id' & v & R & V)]); cbn in C, R; subst c q; [left; eauto|].
  right. eexists. eapply delivered_returns; eassumption.
Qed.

(** ** The whole torrent *)
Definition done_ok (p : proc) (es : list event) : Prop :=
  match p with Running w _ => content cfg (w_fs w) <> None -> t_coalesced (w_mem w) = true \/ Exists io_error es | Dead _ _ => True end.
Lemma done_step base p es0 l p' es : inv base p -> done_ok p es0 -> exec p l = Some (p', es) -> done_ok p' (es0 ++ es).
Proof using ok.
  intros I D E. destruct p' as [w' ts'|]; [|exact Logic.I]. destruct p as [w ts|].
  - destruct l as [c'|a| |a x| |]; try discriminate E.
    + injection E as <- <- <-. now rewrite app_nil_r.
    + pose proof (exec_later_step sha1 cfg env ok _ _ _ _ _ _ E _ I) as (_ & L & _).
      assert (G : content cfg (w_fs w) <> None -> t_coalesced (w_mem w') = true \/ Exists io_error (es0 ++ es)).
      { intros C. destruct (D C) as [X|X]; [left; auto|right; apply Exists_app; auto]. }
      pose proof E as E0. apply step_shape in E as (t & o & T & N & E). destruct o as [w1 q|w1]; destruct E as [E ->]; [|discriminate E]. injection E as -> ->.
      pose proof (proj2 (proj2 (proj2 I)) _ _ T) as TO. unfold next in N. unfold thread_ok in TO. intros C.
      assert (Gs : w_fs w1 = w_fs w -> t_coalesced (w_mem w1) = true \/ Exists io_error (es0 ++ events_of (th_call t) q)). { intros X. apply G. now rewrite <- X. }
      destruct (th_pc t) as [| | | |id|x] eqn:Ep, (th_call t) as [k b d|k b len|k|k|] eqn:Ec; cbn [w_mem forget_past] in N; try discriminate N; try contradiction TO.
      * apply Gs. destruct (check_block_size _ _ _ _); [injection N as <- <-; reflexivity|]. destruct (t_coalesced _); injection N as <- <-; reflexivity.
      * apply Gs. destruct (t_coalesced _).
        -- injection N as N. pose proof (get_block_fs k b len (forget_past w)) as M. destruct (get_block cfg env k b len (forget_past w)) as [w2 []]; cbn in N, M; try discriminate N; injection N as <- <-; exact M.
        -- unfold piece_at, bind, get_mem in N. cbn [w_mem forget_past] in N. destruct (if k <? 0 then _ else _); [|discriminate]. injection N as <- <-. reflexivity.
      * apply Gs. destruct (piece_locked k ts); [discriminate|]. injection N as N.
        assert (M : w_fs (fst (reset_piece k (forget_past w))) = w_fs w).
        { unfold reset_piece, piece_at, deliver, set_piece, get_mem, set_mem, bind. cbn. destruct (if k <? 0 then _ else _) as [q0|]; [|reflexivity]. cbn. destruct (nth_error _ (pc_err q0)) as [[|]|]; reflexivity. }
        destruct (reset_piece k (forget_past w)) as [w2 []]; cbn in N, M; try discriminate N; injection N as <- <-; exact M.
      * apply Gs. destruct (piece_locked k ts); [discriminate|]. unfold piece_at, bind, get_mem in N. cbn [w_mem forget_past] in N. destruct (if k <? 0 then _ else _); [|discriminate]. injection N as <- <-. reflexivity.
      * apply Gs. destruct (torrent_rlocked ts); [discriminate|]. injection N as <- <-. reflexivity.
      * apply Gs. destruct (piece_locked k ts); [discriminate|].
        assert (M : w_fs (fst (put_in_piece k b d (forget_past w))) = w_fs w).
        { unfold put_in_piece, piece_at, set_piece, get_mem, set_mem, bind. cbn. destruct (if k <? 0 then _ else _) as [q0|]; [|reflexivity]. cbn. destruct (pc_coalesced q0); [reflexivity|].
          destruct (match pc_blocks q0 with Some l => _ | None => _ end) as [l|]; [|reflexivity]. destruct (if _ <? 0 then None else _) as [[|]|]; reflexivity. }
        destruct (put_in_piece k b d (forget_past w)) as [w2 []]; cbn in N, M; try discriminate N; injection N as <- <-; exact M.
      * destruct (torrent_rlocked ts); [discriminate|]. injection N as N. destruct TO as [K TI]. destruct (put_finish sha1 cfg env k (forget_past w)) as [w2 r] eqn:PF.
        destruct I as (HJ & HM & _). cbn [disk_of] in HJ.
        assert (P0 : PI (fun k => piece_locked k ts) base (forget_past w)) by (split; [exact HJ|]; split; [constructor|exact HM]).
        assert (piece_locked k ts = true) as PL by (apply piece_locked_iff; exists a, t; rewrite Ec; auto).
        assert (exists p, nth_error (t_pieces (w_mem w)) (Z.to_nat k) = Some p) as [p P].
        { destruct HM as ((ML & _) & _). destruct (nth_error (t_pieces (w_mem w)) (Z.to_nat k)) eqn:X; [eauto|]. apply nth_error_None in X. rewrite ML in X. unfold num_pieces, zlen in K. lia. }
        rewrite <- (Z2Nat.id k) in PF by lia. assert (piece_locked (Z.of_nat (Z.to_nat k)) ts = true) as PL' by (rewrite Z2Nat.id by lia; exact PL).
        destruct (put_finish_more _ base _ p _ _ _ P0 P PL' PF) as (_ & X & _).
        assert (w2 = w1) as -> by (destruct r; cbn in N; congruence). destruct (X C) as [[-> ->] | -> ]; [now left|]. cbn in N. injection N as <-. right. apply Exists_app. right. now constructor.
      * apply Gs. destruct (piece_locked k ts); [discriminate|]. injection N as N. pose proof (get_block_fs k b len (forget_past w)) as M. destruct (get_block cfg env k b len (forget_past w)) as [w2 []]; cbn in N, M; try discriminate N; injection N as <- <-; exact M.
      * apply Gs. destruct (nth_error _ id) as [[[|]|]|]; try discriminate N; injection N as <- <-; reflexivity.
      * apply Gs. destruct (nth_error _ id) as [[[|]|]|]; try discriminate N; injection N as <- <-; reflexivity.
    + cbn in E. destruct (nth_error ts a); [|discriminate]. destruct (next _ _ _ _ _ _); [|discriminate]. unfold crash_at, option_map in E. destruct (nth_error (w_past _) _); discriminate E.
  - destruct l; try discriminate E; unfold StorageSys.exec in E.
    2:{ unfold crash_at, option_map in E. destruct (nth_error (w_past _) _); discriminate E. }
    destruct (load cfg env (booted cfg f tick)) as [w r] eqn:L. destruct r as [u|e|]; try discriminate E. injection E as <- <- <-.
    apply (load_spec sha1 cfg env ok) in L; [|exact (proj1 (proj1 I))]. destruct L as (_ & _ & (MI & MA & _) & _ & L4 & L5). intros C. left. apply L5. intros k Hk. apply (L4 k Hk).
    destruct (piece_exists sha1 cfg env ok _ _ _ MI Hk) as [p P]. exists p. split; [exact P|]. apply (MA _ _ P). unfold on_disk. destruct (content cfg (w_fs w)); [discriminate|congruence].
Qed.
Lemma done_runs base ls : forall p es0 p' es, inv base p -> done_ok p es0 -> Forall same_run ls -> execs p ls = Some (p', es) -> done_ok p' (es0 ++ es).
Proof using ok.
  induction ls as [|l ls IH]; cbn [StorageSys.execs]; intros p es0 p' es I D S E.
  - injection E as <- <-. now rewrite app_nil_r.
  - inversion S; subst. destruct (exec p l) as [[p1 e1]|] eqn:E1; [|discriminate]. destruct (execs p1 ls) as [[p2 e2]|] eqn:E2; [|discriminate]. injection E as <- <-.
    rewrite app_assoc. eapply IH; [exact (proj1 (exec_ok sha1 cfg env ok _ _ _ _ _ I E1))|eapply done_step; eassumption|assumption|exact E2].
Qed.
(** A process that has just been started has its torrent marked complete if it is. *)
Lemma done_start f tick ls d t es p es' : untouched cfg f -> execs (Dead f tick) ls = Some (Dead d t, es) -> exec (Dead d t) LStart = Some (p, es') -> done_ok p [].
Proof using ok.
  intros U E E1. pose proof (execs_inv sha1 cfg env ok _ _ _ _ _ U E) as I. pose proof (done_step _ _ [] _ _ _ I Logic.I E1) as D. cbn [app] in D.
  assert (es' = []) as <-; [|exact D]. unfold StorageSys.exec in E1. destruct (load cfg env (booted cfg d t)) as [w1 [u|e|]]; injection E1 as E2 E3; exact (eq_sym E3).
Qed.
Lemma torrent_waiter f tick ls d t es w ts es1 ls2 w2 ts2 es2 j id : untouched cfg f -> execs (Dead f tick) ls = Some (Dead d t, es) -> exec (Dead d t) LStart = Some (Running w ts, es1) ->
  Forall same_run ls2 -> execs (Running w ts) ls2 = Some (Running w2 ts2, es2) -> ~ Exists io_error es2 ->
  nth_error ts2 j = Some {| th_call := CWaitAll; th_pc := Waiting id |} -> content cfg (w_fs w2) <> None -> returns_next (Running w2 ts2) j CWaitAll RNil.
Proof using ok.
  intros U E E1 S E2 NE T C. pose proof (execs_inv sha1 cfg env ok _ _ _ _ _ U E) as I. pose proof (proj1 (exec_ok sha1 cfg env ok _ _ _ _ _ I E1)) as I1.
  pose proof (done_start _ _ _ _ _ _ _ _ U E E1) as D1. pose proof (done_runs _ _ _ _ _ _ I1 D1 S E2) as D2. cbn [app] in D2. destruct (D2 C) as [TC|X]; [|contradiction].
  assert (I2 : inv f (Running w2 ts2)).
  { clear - I1 E2 ok. revert I1 E2. generalize (Running w ts). revert es2. induction ls2 as [|l ls IH]; cbn [StorageSys.execs]; intros es2 p I E; [injection E as -> <-; exact I|].
    destruct (exec p l) as [[p1 e1]|] eqn:E1; [|discriminate]. destruct (execs p1 ls) as [[p2 e2]|] eqn:E2; [|discriminate]. injection E as -> <-. eapply IH; [|exact E2]. exact (proj1 (exec_ok sha1 cfg env ok _ _ _ _ _ I E1)). }
  pose proof (proj2 (proj2 (proj2 I2)) _ _ T) as TO. cbn in TO. subst id. destruct I2 as (_ & (MI & _) & _). destruct MI as (_ & _ & _ & F & _). rewrite TC in F. exact (delivered_returns _ _ _ _ _ _ T F).
Qed.
(** If the content is in place but the torrent is not marked complete, nobody who waits for
    the torrent returns before the process is restarted. *)
Definition in_vain (p : proc) : Prop := match p with Running w _ => content cfg (w_fs w) <> None /\ t_coalesced (w_mem w) = false | Dead _ _ => True end.
Lemma vain_step base p l p' es : inv base p -> in_vain p -> same_run l -> exec p l = Some (p', es) -> in_vain p' /\ forall r, ~ In (Ret CWaitAll r) es.
Proof using ok.
  intros I V S E. destruct p as [w ts|]; [|destruct l; try contradiction; discriminate E]. destruct V as [C N0].
  destruct l as [c|j| |j x| |]; try contradiction; [injection E as <- <-; split; [now split|intros r []]|].
  assert (Px : forall w' ts', p' = Running w' ts' -> content cfg (w_fs w') <> None).
  { intros w' ts' ->. destruct (exec_ok sha1 cfg env ok _ _ _ _ _ I E) as (_ & (_ & X & _) & _). cbn [disk_of] in X. destruct (content cfg (w_fs w)) eqn:Y; [|congruence]. rewrite (X _ eq_refl). discriminate. }
  apply step_shape in E as (t & o & T & N & E). pose proof (proj2 (proj2 (proj2 I)) _ _ T) as TO. destruct o as [w1 q|w1]; destruct E as [-> ->]; [|split; [exact Logic.I|intros r []]].
  assert (G : t_coalesced (w_mem w1) = false /\ forall r, th_call t = CWaitAll -> q <> Done r).
  2:{ destruct G as [G1 G2]. split; [split; [eapply Px; reflexivity|exact G1]|]. intros r R. destruct q; cbn in R; try contradiction. destruct R as [R|[]]. injection R as R ->. now apply (G2 r). }
  unfold next in N. unfold thread_ok in TO. destruct I as (HJ & HM & _). pose proof HM as (MI & MA & _).
  destruct (th_pc t) as [| | | |id|x] eqn:Ep, (th_call t) as [k b d|k b len|k|k|] eqn:Ec; cbn [w_mem forget_past] in N; try discriminate N; try contradiction TO.
  - split; [|discriminate]. destruct (check_block_size _ _ _ _); [injection N as <- <-; exact N0|]. rewrite N0 in N. injection N as <- <-. exact N0.
  - split; [|discriminate]. rewrite N0 in N. unfold piece_at, bind, get_mem in N. cbn [w_mem forget_past] in N. destruct (if k <? 0 then _ else _); [|discriminate]. injection N as <- <-. exact N0.
  - split; [|discriminate]. destruct (piece_locked k ts); [discriminate|]. injection N as N.
    assert (M : t_coalesced (w_mem (fst (reset_piece k (forget_past w)))) = t_coalesced (w_mem w)).
    { unfold reset_piece, piece_at, deliver, set_piece, get_mem, set_mem, bind. cbn. destruct (if k <? 0 then _ else _) as [q0|]; [|reflexivity]. cbn. destruct (nth_error _ (pc_err q0)) as [[|]|]; reflexivity. }
    destruct (reset_piece k (forget_past w)) as [w2 []]; cbn in N, M; try discriminate N; injection N as <- <-; congruence.
  - split; [|discriminate]. destruct (piece_locked k ts); [discriminate|]. unfold piece_at, bind, get_mem in N. cbn [w_mem forget_past] in N. destruct (if k <? 0 then _ else _); [|discriminate]. injection N as <- <-. exact N0.
  - destruct (torrent_rlocked ts); [discriminate|]. injection N as <- <-. split; [exact N0|]. discriminate.
  - split; [|discriminate]. destruct (piece_locked k ts); [discriminate|].
    assert (M : t_coalesced (w_mem (fst (put_in_piece k b d (forget_past w)))) = t_coalesced (w_mem w)).
    { unfold put_in_piece, piece_at, set_piece, get_mem, set_mem, bind. cbn. destruct (if k <? 0 then _ else _) as [q0|]; [|reflexivity]. cbn. destruct (pc_coalesced q0); [reflexivity|].
      destruct (match pc_blocks q0 with Some l => _ | None => _ end) as [l|]; [|reflexivity]. destruct (if _ <? 0 then None else _) as [[|]|]; reflexivity. }
    destruct (put_in_piece k b d (forget_past w)) as [w2 []]; cbn in N, M; try discriminate N; injection N as <- <-; congruence.
  - exfalso. destruct TO as [K _]. destruct (piece_exists sha1 cfg env ok _ _ _ MI K) as [p P].
    assert (piece_locked k ts = true) as PL by (apply piece_locked_iff; exists j, t; rewrite Ec; auto).
    destruct MI as (_ & MP & _). destruct (MP _ _ P) as (_ & _ & _ & _ & _ & P6 & _). rewrite Z2Nat.id in P6 by lia. destruct (P6 PL) as [P6' _].
    assert (pc_coalesced p = true); [|congruence]. apply (MA _ _ P). unfold on_disk. destruct (content cfg (w_fs w)); [discriminate|congruence].
  - split; [|discriminate]. destruct (piece_locked k ts); [discriminate|]. injection N as N. pose proof (get_block_mem cfg env k b len (forget_past w)) as M. destruct (get_block cfg env k b len (forget_past w)) as [w2 []]; cbn in N, M; try discriminate N; injection N as <- <-; congruence.
  - split; [|discriminate]. destruct (nth_error _ id) as [[[|]|]|]; try discriminate N; injection N as <- <-; exact N0.
  - exfalso. subst id. destruct MI as (_ & _ & _ & F & _). rewrite N0 in F. rewrite F in N. discriminate N.
Qed.
Lemma vain_runs base ls : forall p p' es, inv base p -> in_vain p -> Forall same_run ls -> execs p ls = Some (p', es) -> forall r, ~ In (Ret CWaitAll r) es.
Proof using ok.
  induction ls as [|l ls IH]; cbn [StorageSys.execs]; intros p p' es I V S E r.
  - injection E as <- <-. intros [].
  - inversion S; subst. destruct (exec p l) as [[p1 e1]|] eqn:E1; [|discriminate]. destruct (execs p1 ls) as [[p2 e2]|] eqn:E2; [|discriminate]. injection E as <- <-.
    destruct (vain_step _ _ _ _ _ I V H1 E1) as [V1 R1]. intros X. apply in_app_iff in X as [X|X]; [now apply (R1 r)|].
    revert X. eapply IH; [exact (proj1 (exec_ok sha1 cfg env ok _ _ _ _ _ I E1))|exact V1|assumption|exact E2].
Qed.
Lemma vain_forever f tick ls w ts es ls2 p2 es2 r : untouched cfg f -> execs (Dead f tick) ls = Some (Running w ts, es) ->
  content cfg (w_fs w) <> None -> t_coalesced (w_mem w) = false -> Forall same_run ls2 -> execs (Running w ts) ls2 = Some (p2, es2) -> ~ In (Ret CWaitAll r) es2.
Proof using ok. intros U E C N S E2. eapply vain_runs; [exact (execs_inv sha1 cfg env ok _ _ _ _ _ U E)|split; [exact C|exact N]|exact S|exact E2]. Qed.
End Wait.
