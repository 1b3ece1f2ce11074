(** A second Load of the same Storage. *)
From Verif Require Import GoBase GoBaseProofs Metainfo MetainfoSpec
  Fs Storage StorageSys StorageSpec StorageSysSpec StorageMemSpec StorageFsProofs StorageIoProofs StorageProofs StorageLoadProofs StorageSysProofs StorageClaimProofs.

Section Reload.
Variable sha1 : bytes -> bytes.
Variable cfg : config.
Variable env : nat -> choice.
Hypothesis ok : config_ok cfg.
Notation execs := (StorageSys.execs sha1 cfg env).
Notation i := (c_info cfg).
Notation n := (num_pieces i).

(** A piece that is complete cannot be completed again. *)
Lemma complete_again busy f w k w1 : mem_ok cfg busy f (w_mem w) -> 0 <= k < n -> on_disk cfg f k <> None -> w_mem w1 = w_mem w ->
  complete_piece k w1 = (w1, Panic).
Proof.
  intros (M & D & _) Hk Hd Ew. destruct (piece_exists sha1 cfg env ok _ _ _ M Hk) as [p Hp].
  assert (pc_coalesced p = true) as Hc by (apply (D _ _ Hp); rewrite Z2Nat.id by lia; exact Hd).
  destruct M as (_ & M & _). destruct (M _ _ Hp) as (_ & _ & _ & _ & _ & _ & Hf & _). specialize (Hf Hc).
  unfold complete_piece, piece_at, deliver, bind, get_mem. rewrite Ew. destruct (k <? 0) eqn:K; [lia|]. rewrite Hp. cbn. rewrite Ew, Hf. reflexivity.
Qed.
Lemma load_again f tick ls w ts es w' r : untouched cfg f -> execs (Dead f tick) ls = Some (Running w ts, es) ->
  load cfg env w = (w', r) -> (exists k, 0 <= k < n /\ on_disk cfg (w_fs w) k <> None) ->
  (r = Panic \/ r = Err EIO) /\ ((forall t, ch_fail (env t) = false) -> r = Panic).
Proof.
  intros U R E (k & Hk & Hd). destruct (execs_inv sha1 cfg env ok f tick ls _ es U R) as [[F _] (M & _ & _)]. cbn [disk_of] in F.
  pose proof F as (D & Nd & Pd & Tp & _).
  unfold load, bind at 1, look at 1 in E.
  destruct (ch_fail (env (w_tick w))) eqn:C1; [injection E as <- <-; split; [auto|intros H; rewrite H in C1; discriminate]|].
  rewrite (target_path_eq cfg ok) in E. cbn [w_fs] in E.
  set (w1 := {| w_fs := w_fs w; w_past := w_past w; w_tick := S (w_tick w); w_mem := w_mem w |}) in *.
  destruct (lookup (target cfg) (w_fs w)) as [nd|] eqn:Et.
  - assert (on_disk cfg (w_fs w) 0 <> None) as H0.
    { destruct D as [[D|(cc & C & W)] _]; [congruence|]. unfold on_disk. rewrite C. discriminate. }
    assert (exists size, (match nd with NDir => Some (ch_size (env (w_tick w))) | NFile b => Some (zlen b) end) = Some size) as (size & Es) by (destruct nd; eauto).
    change (the_info cfg) with i in E. unfold num_pieces, zlen in Hk. destruct (List.length (i_pieces i)) as [|m] eqn:Ln; [lia|].
    assert (complete_all (S m) 0 w1 = (w1, Panic)) as P.
    { cbn [complete_all]. unfold bind. rewrite (complete_again _ _ w 0 w1 M); auto. unfold num_pieces, zlen. lia. }
    assert (r = Panic) as -> by (destruct nd; unfold bind in E; rewrite P in E; injection E as _ <-; reflexivity).
    split; auto.
  - assert (Cn : content cfg (w_fs w) = None) by now apply content_target_none.
    unfold on_disk in Hd. rewrite Cn in Hd. destruct (lookup (piece_file cfg k) (w_fs w)) as [[|b]|] eqn:El; try congruence.
    unfold bind at 1, look at 1 in E. subst w1. cbn [w_tick w_fs w_past w_mem] in E.
    destruct (ch_fail (env (S (w_tick w)))) eqn:C2; [injection E as <- <-; split; [auto|intros H; rewrite H in C2; discriminate]|].
    rewrite (piece_dir_eq cfg ok) in E.
    change (piece_file cfg k) with (pieces_dir cfg ++ [piece_name k]) in El. rewrite (Tp eq_refl _ _ El) in E.
    destruct (names_in_spec (pieces_dir cfg) (w_fs w) Nd) as [_ Hn].
    destruct (names_in (pieces_dir cfg) (w_fs w)) as [|nm names] eqn:En.
    { exfalso. apply (in_nil (a := piece_name k)). apply Hn. congruence. }
    destruct (lookup (pieces_dir cfg ++ [nm]) (w_fs w)) as [nd|] eqn:E1; [|exfalso; apply (proj1 (Hn nm)); [left; reflexivity|exact E1]].
    destruct D as [_ D]. destruct (D _ _ E1) as (k' & b' & Hk' & -> & -> & _). pose proof (n_small cfg ok) as Ns.
    cbn [load_entries] in E. rewrite scan_piece in E by lia. unfold bind at 1 2, look in E. cbn [w_tick w_fs w_past w_mem] in E.
    destruct (ch_fail (env (S (S (w_tick w))))) eqn:C3; [injection E as <- <-; split; [auto|intros H; rewrite H in C3; discriminate]|].
    rewrite (piece_dir_eq cfg ok), E1 in E. unfold bind at 1, add_downloaded, bind at 1, get_mem, set_mem in E. cbn [w_mem w_fs w_past w_tick] in E.
    unfold bind at 1 in E.
    match type of E with context [complete_piece k' ?x] => set (w4 := x) in * end.
    assert (complete_piece k' w4 = (w4, Panic)) as P.
    { (* only the counter has changed *)
      destruct M as (M & Dk & _). destruct (piece_exists sha1 cfg env ok _ _ _ M Hk') as [p Hp].
      assert (pc_coalesced p = true) as Hc.
      { apply (Dk _ _ Hp). rewrite Z2Nat.id by lia. unfold on_disk. rewrite Cn. change (piece_file cfg k') with (pieces_dir cfg ++ [piece_name k']). rewrite E1. discriminate. }
      destruct M as (_ & M & _). destruct (M _ _ Hp) as (_ & _ & _ & _ & _ & _ & Hf & _). specialize (Hf Hc).
      unfold complete_piece, piece_at, deliver, bind, get_mem, w4. cbn [w_mem t_pieces]. destruct (k' <? 0) eqn:K; [lia|]. rewrite Hp. cbn. rewrite Hf. reflexivity. }
    unfold bind in E. rewrite P in E. injection E as <- <-. auto.
Qed.
(** As long as nothing is stored, Load may be called any number of times. *)
Lemma load_again_empty f tick ls w ts es w' r : untouched cfg f -> execs (Dead f tick) ls = Some (Running w ts, es) ->
  load cfg env w = (w', r) -> (forall k, 0 <= k < n -> on_disk cfg (w_fs w) k = None) ->
  (r = Ok tt \/ r = Err EIO) /\ w_fs w' = w_fs w /\ w_mem w' = w_mem w.
Proof.
  intros U R E Hno. destruct (execs_inv sha1 cfg env ok f tick ls _ es U R) as [[F _] (M & _ & _)]. cbn [disk_of] in F.
  pose proof F as (D & Nd & Pd & Tp & _).
  pose proof ok as (_ & Hn0 & _).
  unfold load, bind at 1, look at 1 in E.
  destruct (ch_fail (env (w_tick w))) eqn:C1; [injection E as <- <-; auto|].
  rewrite (target_path_eq cfg ok) in E. cbn [w_fs] in E.
  destruct (lookup (target cfg) (w_fs w)) as [nd|] eqn:Et.
  { exfalso. destruct D as [[D|(cc & C & W)] _]; [congruence|]. specialize (Hno 0 ltac:(lia)). unfold on_disk in Hno. rewrite C in Hno. discriminate. }
  assert (Cn : content cfg (w_fs w) = None) by now apply content_target_none.
  unfold bind at 1, look at 1 in E. cbn [w_tick w_fs w_past w_mem] in E.
  destruct (ch_fail (env (S (w_tick w)))) eqn:C2; [injection E as <- <-; auto|].
  rewrite (piece_dir_eq cfg ok) in E. destruct Pd as [Pd|Pd]; rewrite Pd in E; [injection E as <- <-; auto|].
  destruct (names_in_spec (pieces_dir cfg) (w_fs w) Nd) as [_ Hn].
  destruct (names_in (pieces_dir cfg) (w_fs w)) as [|nm names] eqn:En.
  - cbn [load_entries] in E. unfold bind at 1, ret at 1 in E. unfold coalesce_pieces, bind, get_mem in E. cbn [w_mem] in E.
    destruct M as (M & Dk & _). pose proof M as (Ml & _ & _ & _ & _ & _ & M7).
    assert (filter pc_coalesced (t_pieces (w_mem w)) = []) as Fe.
    { destruct (filter pc_coalesced (t_pieces (w_mem w))) as [|p l] eqn:Fl; [reflexivity|]. exfalso.
      assert (In p (filter pc_coalesced (t_pieces (w_mem w)))) as I by (rewrite Fl; left; reflexivity). apply filter_In in I. destruct I as [I Ip].
      apply In_nth_error in I. destruct I as [k Hk]. apply (Dk _ _ Hk) in Ip. apply Ip, Hno.
      exact (piece_bound sha1 cfg env ok _ _ _ _ M Hk). }
    assert (t_complete (w_mem w) =? zlen (t_pieces (w_mem w)) = false) as Q.
    { rewrite M7. unfold num_coalesced. rewrite Fe. unfold num_pieces, zlen in *. rewrite Ml. apply Z.eqb_neq. cbn. lia. }
    rewrite Q in E. cbn in E. injection E as <- <-. auto.
  - exfalso. destruct (lookup (pieces_dir cfg ++ [nm]) (w_fs w)) as [nd|] eqn:E1; [|apply (proj1 (Hn nm)); [left; reflexivity|exact E1]].
    destruct D as [_ D]. destruct (D _ _ E1) as (k' & b' & Hk' & -> & -> & _). specialize (Hno k' Hk'). unfold on_disk in Hno. rewrite Cn in Hno.
    change (pieces_dir cfg ++ [piece_name k']) with (piece_file cfg k') in E1. rewrite E1 in Hno. discriminate.
Qed.
End Reload.
