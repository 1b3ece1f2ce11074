(** Right data never fails its check, whatever the disk does. *)
From Verif Require Import GoBase GoBaseProofs Bitfield Metainfo MetainfoSpec Fs Storage StorageSys StorageSpec StorageSysSpec StorageMemSpec StorageWaitSpec StorageFsProofs StorageIoProofs
  StorageProofs StorageGetProofs StorageLoadProofs StorageSysProofs StorageClaimProofs StorageHealthSpec StorageMoreProofs StorageWaitProofs StorageAcceptProofs StorageHonestProofs.

Section Right.
Variable sha1 : bytes -> bytes.
Variable cfg : config.
Variable env : nat -> choice.
Hypothesis ok : config_ok cfg.
Variable c : bytes.
Hypothesis Wc : whole sha1 cfg c.
Notation exec := (StorageSys.exec sha1 cfg env).
Notation execs := (StorageSys.execs sha1 cfg env).
Notation i := (c_info cfg).
Notation n := (num_pieces i).
Notation PL := (i_piece_length i).
Notation inv := (StorageSysProofs.inv sha1 cfg).
Notation PI := (StorageProofs.PI sha1 cfg).

Definition rt (p : proc) : Prop :=
  match p with
  | Running w ts =>
      (forall j t k x d, nth_error ts j = Some t -> th_call t = CPut k x d -> right_block cfg c k x d) /\
      (forall k p j b, nth_error (t_pieces (w_mem w)) k = Some p -> nth_error (blocks_of p) j = Some (Some b) -> b = slice c (Z.of_nat k * PL + BL * Z.of_nat j) (zlen b))
  | Dead _ _ => True
  end.
Definition no_mismatch (e : event) : Prop := forall k x d a g h, e <> Ret (CPut k x d) (RErr (EChecksum a g h)).
Definition not_put (e : event) : Prop := match e with Ret (CPut _ _ _) _ => False | _ => True end.
Lemma not_put_fine es : Forall not_put es -> Forall no_mismatch es.
Proof. intros F. eapply Forall_impl; [|exact F]. intros e P k x d a g h ->. contradiction. Qed.
Lemma rt_step base w ts l p' es' : inv base (Running w ts) -> rt (Running w ts) -> right_puts cfg c [l] -> exec (Running w ts) l = Some (p', es') -> rt p' /\ Forall no_mismatch es'.
Proof using ok Wc.
  intros I K RP E. destruct l as [e|j| |j x| |]; try discriminate E.
  { injection E as <- <-. split; [|constructor]. split; [|exact (proj2 K)].
    intros a u k x d Hu Cu. destruct (Nat.lt_ge_cases a (List.length ts)) as [L|L]; [rewrite nth_error_app1 in Hu by exact L; eapply (proj1 K); eauto|].
    rewrite nth_error_app2 in Hu by exact L. destruct (a - List.length ts)%nat as [|q]; cbn in Hu; [injection Hu as <-; cbn in Cu; subst e|destruct q; discriminate]. apply RP. now left. }
  2:{ cbn in E. injection E as <- <-. split; [exact Logic.I|constructor]. }
  2:{ cbn in E. destruct (nth_error ts j); [|discriminate]. destruct (next _ _ _ _ _ _); [|discriminate]. unfold crash_at, option_map in E. destruct (nth_error (w_past _) _); [|discriminate E]. injection E as <- <-. split; [exact Logic.I|constructor]. }
  apply step_shape in E as (t & o & T & N & E). destruct o as [w1 q|w1]; destruct E as [-> ->]; [|split; [exact Logic.I|constructor]].
  pose proof I as (HJ & HM & OH & HT). cbn [disk_of] in HJ. pose proof HM as (MI & MA & MT). pose proof (HT _ _ T) as TO. unfold next in N. unfold thread_ok in TO.
  pose proof K as (K1 & K2).
  assert (P0 : PI (fun k => piece_locked k ts) base (forget_past w)) by (split; [exact HJ|]; split; [constructor|exact HM]).
  assert (KT : forall q', forall a u k x d, nth_error (list_set j {| th_call := th_call t; th_pc := q' |} ts) a = Some u -> th_call u = CPut k x d -> right_block cfg c k x d).
  { intros q' a u k x d Hu Cu. apply nth_error_list_set in Hu as [(_ & -> & _)|[_ Hu]]; [cbn in Cu; eauto|eauto]. }
  assert (G : w_mem w1 = w_mem w -> Forall no_mismatch (events_of (th_call t) q) ->
    rt (Running w1 (list_set j {| th_call := th_call t; th_pc := q |} ts)) /\ Forall no_mismatch (events_of (th_call t) q)).
  { intros Em F. split; [|exact F]. split; [apply KT|]. rewrite Em. exact K2. }
  destruct (th_pc t) as [| | | |id|x] eqn:Ep, (th_call t) as [k b d|k b len|k|k|] eqn:Ec; cbn [w_mem forget_past] in N; try discriminate N; try contradiction TO.
  - injection N as N. destruct (check_block_size _ _ _ _) as [e|] eqn:CB; [|destruct (t_coalesced _)]; injection N as <- <-; apply G; try reflexivity; cbn [events_of]; repeat constructor.
    + intros k' x' d' a' g' h' [= _ _ _ ->]. unfold check_block_size in CB. destruct (negb (Z.rem b BL =? 0)); [discriminate CB|]. cbv zeta in CB. destruct (negb _) in CB; discriminate CB.
    + intros k' x' d' a' g' h' [=].
  - assert (w_mem w1 = w_mem w) as B.
    { destruct (t_coalesced _).
      - injection N as N. pose proof (get_block_mem cfg env k b len (forget_past w)) as M2.
        destruct (get_block cfg env k b len (forget_past w)) as [w2 []]; cbn in N, M2; try discriminate N; injection N as <- <-; auto.
      - unfold piece_at, bind, get_mem in N. cbn [w_mem forget_past] in N. destruct (if k <? 0 then _ else _); [|discriminate]. injection N as <- <-. reflexivity. }
    apply G; [exact B|]. apply not_put_fine. destruct q; repeat constructor.
  - destruct (piece_locked k ts) eqn:PLk; [discriminate|]. injection N as N. destruct (reset_piece k (forget_past w)) as [w2 r] eqn:R.
    apply (reset_piece_spec sha1 cfg env ok _ _ _ _ _ _ P0 PLk) in R. destruct r as [[]|e|]; [|destruct R|discriminate N]. cbn in N. injection N as <- <-.
    destruct R as (kn & p & -> & Hp & Cp & Fp & Hp' & Ho & Hfs & _). cbn [w_mem w_fs forget_past] in Hp, Ho, Hfs. cbn [events_of].
    split; [|apply not_put_fine; repeat constructor].
    split; [apply KT|].
    intros k' p' j' b' Q1 Q2. destruct (Nat.eq_dec k' kn) as [->|NE]; [|rewrite Ho in Q1 by exact NE; eauto].
    rewrite Hp' in Q1. injection Q1 as <-. cbn in Q2. apply nth_error_In, repeat_spec in Q2. discriminate.
  - destruct (piece_locked k ts); [discriminate|]. unfold piece_at, bind, get_mem in N. cbn [w_mem forget_past] in N. destruct (if k <? 0 then _ else _); [|discriminate]. injection N as <- <-. apply G; [reflexivity|constructor].
  - destruct (torrent_rlocked ts); [discriminate|]. injection N as <- <-. apply G; [reflexivity|constructor].
  - destruct (K1 _ _ _ _ _ T Ec) as (Rk & Rt & Rd).
    destruct (piece_locked k ts) eqn:PLk; [discriminate|]. destruct (put_in_piece k b d (forget_past w)) as [w2 r] eqn:R.
    apply (put_in_piece_spec sha1 cfg env ok _ _ _ _ _ _ _ _ P0 PLk TO) in R. destruct r as [[]|e|]; [|destruct R as (-> & -> & R)|]; try discriminate N; injection N as <- <-.
    2:{ apply G; [reflexivity|]. repeat constructor. intros k' x' d' a' g' h' [=]. }
    destruct R as (kn & p & bn & -> & Hp & Cp & -> & Bb & Hd & Hn & -> & _). cbn [w_mem w_fs forget_past] in Hp. cbn [events_of]. split; [|constructor].
    split; [apply KT|].
    intros k' p' j' b' Q1 Q2. cbn in Q1. apply nth_error_list_set in Q1 as [(-> & -> & _)|[_ Q1]]; [|eauto].
    cbn in Q2. apply nth_error_list_set in Q2 as [(-> & Q2 & _)|[_ Q2]]; [|eauto]. injection Q2 as ->. exact Rd.
  - destruct TO as [Kr Ti]. destruct (torrent_rlocked ts); [discriminate|]. injection N as N. destruct (put_finish sha1 cfg env k (forget_past w)) as [w2 r] eqn:PF.
    assert (PLk : piece_locked k ts = true) by (apply piece_locked_iff; exists j, t; rewrite Ec; auto).
    destruct (piece_exists sha1 cfg env ok _ _ _ MI Kr) as [p P].
    rewrite <- (Z2Nat.id k) in PF, PLk by lia. pose proof (put_finish_spec sha1 cfg env ok _ base _ p _ _ _ P0 P PLk PF) as (NP & _ & _ & _ & Oth & NF & CO & FU).
    destruct (put_finish_more sha1 cfg env ok _ base _ p _ _ _ P0 P PLk PF) as (_ & CT & TP). rewrite Z2Nat.id in * by lia. cbn [w_mem forget_past] in *.
    assert (w2 = w1) as -> by (destruct r; cbn in N; congruence).
    pose proof MI as (_ & MP & _). pose proof (MP _ _ P) as PO. pose proof PO as (_ & _ & _ & _ & _ & P6 & _). rewrite Z2Nat.id in P6 by lia. destruct (P6 PLk) as [Pc _].
    assert (HH : forall l data, pc_blocks p = Some l -> all_blocks l = Some data -> zlen data = piece_size i k -> sha1 data = piece_hash i k).
    { intros l data Bl Ad Zd. assert (Kr' : 0 <= Z.of_nat (Z.to_nat k) < n) by lia. destruct (piece_blocks sha1 cfg env ok _ _ _ _ Kr' PO Pc) as (B1 & _ & B3 & _). rewrite Z2Nat.id in * by lia.
      assert (Bo : blocks_of p = l) by (unfold blocks_of; now rewrite Bl). rewrite Bo in *. destruct (piece_range cfg ok k Kr) as [R1 _]. destruct (piece_size_eq cfg ok _ Kr) as [_ Hs]. destruct (num_blocks_spec (piece_size i k)) as [N1 N2]; [lia|].
      assert (Ed : data = slice c (k * PL + BL * 0) (zlen data)).
      { apply (all_blocks_slice c (piece_size i k) _ l); [exact Ad|exact R1|lia|intros _; rewrite B1; lia|]. intros j' b' Q. rewrite Z.add_0_l. split; [now apply B3|].
        pose proof (K2 _ _ j' b' P) as Q2. rewrite Bo, Z2Nat.id in Q2 by lia. now apply Q2. }
      rewrite Z.mul_0_r, Z.add_0_r, Zd in Ed. rewrite Ed. destruct Wc as [_ Wk]. apply (Wk k Kr). }
    assert (r = Ok tt \/ r = Err EIO) as RR.
    { destruct r as [[]|e|]; [now left| |easy]. right.
      destruct (full_or p) as [Fu|Fu]; [|destruct (NF Fu); discriminate]. destruct Fu as (l & Bl & Cl). destruct (FU l Bl Cl) as (data & Ad & Zd & R). rewrite (HH l data Bl Ad Zd) in R.
      rewrite (proj2 (bytes_eqb_eq _ _) eq_refl) in R. now subst e. }
    split; [|destruct RR as [-> | ->]; cbn in N; injection N as <-; repeat constructor; intros k' x' d' a' g' h' [=]].
    split; [apply KT|].
    intros k' p' j' b' Q1 Q2. destruct TP as [TP|TP]; rewrite TP in Q1; [eauto|]. apply nth_error_list_set in Q1 as [(-> & -> & _)|[_ Q1]]; [|eauto].
    cbn in Q2. apply nth_error_In, repeat_spec in Q2. discriminate Q2.
  - destruct (piece_locked k ts); [discriminate|]. injection N as N. pose proof (get_block_mem cfg env k b len (forget_past w)) as M2.
    destruct (get_block cfg env k b len (forget_past w)) as [w2 []]; cbn in N, M2; try discriminate N; injection N as <- <-; (apply G; [exact M2|apply not_put_fine; repeat constructor]).
  - destruct (nth_error _ id) as [[[|]|]|]; try discriminate N; injection N as <- <-; (apply G; [reflexivity|apply not_put_fine; now repeat constructor]).
  - destruct (nth_error _ id) as [[[|]|]|]; try discriminate N; injection N as <- <-; (apply G; [reflexivity|apply not_put_fine; now repeat constructor]).
Qed.
Lemma idle_bare ls : forall p p' es, (match p with Running w [] => bare (w_mem w) | _ => True end) -> execs p ls = Some (p', es) -> match p' with Running w [] => bare (w_mem w) | _ => True end.
Proof using.
  clear ok Wc c. induction ls as [|l ls IH]; cbn [StorageSys.execs]; intros p p' es B E; [injection E as <- _; exact B|].
  destruct (exec p l) as [[p1 e1]|] eqn:X; [|discriminate]. destruct (execs p1 ls) as [[p2 e2]|] eqn:Y; [|discriminate]. injection E as <- _. refine (IH p1 p2 e2 _ Y). clear IH Y.
  destruct p as [w ts|f t].
  - destruct l as [e|j| |j x| |]; try discriminate X.
    + injection X as <- _. destruct ts; exact Logic.I.
    + apply step_shape in X as (t & o & T & N & X). destruct o as [w1 q|w1]; destruct X as [-> _]; [|exact Logic.I]. destruct ts as [|? ts]; [destruct j; discriminate T|]. destruct j; exact Logic.I.
    + injection X as <- _. exact Logic.I.
    + cbn in X. destruct (nth_error ts j); [|discriminate]. destruct (next _ _ _ _ _ _); [|discriminate]. unfold crash_at, option_map in X. destruct (nth_error (w_past _) _); [|discriminate X]. injection X as <- _. exact Logic.I.
  - destruct l; try discriminate X; unfold StorageSys.exec in X.
    + pose proof (load_bare cfg env (booted cfg f t)) as LB. destruct (load cfg env (booted cfg f t)) as [w1 [u|e|]]; injection X as <- _; [|exact Logic.I..]. apply LB. apply new_bare.
    + unfold crash_at, option_map in X. destruct (nth_error _ _); [|discriminate X]. injection X as <- _. exact Logic.I.
Qed.
Lemma rt_start f t ls w es : execs (Dead f t) ls = Some (Running w [], es) -> rt (Running w []).
Proof using.
  clear ok Wc. intros E. apply idle_bare in E; [|exact Logic.I]. split; [intros [|j]; discriminate|]. intros k p j b P B. unfold bare in E. rewrite Forall_forall in E. unfold blocks_of in B. rewrite (E p) in B by (eapply nth_error_In; exact P).
  apply nth_error_In, repeat_spec in B. discriminate.
Qed.
End Right.
