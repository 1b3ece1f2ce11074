(** C137: what Load makes of the disk it finds.

    [booted]: a new Storage on the disk (StorageSys.v); [load]: Storage.Load (Storage.v).
    [starts_like], [stray]: StorageFoundSpec.v; [target], [pieces_dir]: StorageSpec.v.
    The disk is any that has no two nodes of the same path: other programs may have written it. *)
From Verif Require Import GoBase Bitfield BitfieldSpec BencDecode Metainfo MetainfoSpec Fs FsProofs Storage StorageSys StorageSpec StorageSysSpec StorageFoundProofs.
From Verif Require PropStorage.
From Verif Require Import StorageFoundSpec.

(** ** C137 *)
(** Load takes the process down only if there is no target and among the pieces is a name that
    starts like that of a piece the torrent does not have, or like the same piece as another. *)
Theorem C137_load_panics_only_partial :
  forall cfg env, config_ok cfg -> forall f tick w, NoDup (map fst f) -> load cfg env (booted cfg f tick) = (w, Panic) ->
  lookup (target cfg) f = None /\ lookup (pieces_dir cfg) f = Some NDir /\ exists name, stray cfg f name.
Proof. exact (load_panic (fun b => b)). Qed.
Print Assumptions C137_load_panics_only_partial.
(** With such a name it does so on every start on which no os call fails. *)
Theorem C137_stray_name_panics :
  forall cfg env, config_ok cfg -> forall f tick name, NoDup (map fst f) -> (forall t, ch_fail (env t) = false) ->
  lookup (target cfg) f = None -> lookup (pieces_dir cfg) f = Some NDir -> stray cfg f name -> snd (load cfg env (booted cfg f tick)) = Panic.
Proof. exact (load_stray (fun b => b)). Qed.
Print Assumptions C137_stray_name_panics.
(** Whatever is at TargetDir/Name is taken for the whole torrent: Load fails only for an os
    call that failed, and otherwise every piece is advertised. *)
Theorem C137_target_is_trusted :
  forall cfg env, config_ok cfg -> forall f tick w r, NoDup (map fst f) -> lookup (target cfg) f <> None -> load cfg env (booted cfg f tick) = (w, r) ->
  (r = Err EIO /\ exists t, ch_fail (env t) = true) \/
  (r = Ok tt /\ w_fs w = f /\ forall k, member (advertised w) k <-> 0 <= k < num_pieces (c_info cfg)).
Proof. exact (load_trusts (fun b => b)). Qed.
Print Assumptions C137_target_is_trusted.
(** Without a target, the pieces advertised are those that a name starts like, whatever is in
    these files, or directories, and however long they are. *)
Theorem C137_names_are_trusted :
  forall cfg env, config_ok cfg -> forall f tick w, NoDup (map fst f) -> lookup (target cfg) f = None -> load cfg env (booted cfg f tick) = (w, Ok tt) ->
  forall k, member (advertised w) k <-> lookup (pieces_dir cfg) f = Some NDir /\ exists name, found cfg f name /\ starts_like name k.
Proof. exact (load_named (fun b => b)). Qed.
Print Assumptions C137_names_are_trusted.
(** The full claim, that Load copes with whatever is on the disk, is false: a backup copy
    beside a verified piece, or a piece of another number, and the process dies at every start. *)
Definition ex_cfg : config := PropStorage.ex_cfg PropStorage.ex_two.
Definition ex_with (l : list (bytes * bytes)) : fs :=
  PropStorage.ex_fs ++ (pieces_dir ex_cfg, NDir) :: map (fun x => (pieces_dir ex_cfg ++ [fst x], NFile (snd x))) l.
Definition ex_backup : fs := ex_with [(bs "0.piece", bs "ab"); (bs "0.piece~", bs "ab")].
Definition ex_number : fs := ex_with [(bs "0.piece", bs "ab"); (bs "7.piece", bs "ab")].
Lemma ex_keys f : f = ex_backup \/ f = ex_number -> NoDup (map fst f) /\ lookup (target ex_cfg) f = None /\ lookup (pieces_dir ex_cfg) f = Some NDir.
Proof.
  intros [->| ->]; (split; [|split; vm_compute; reflexivity]); vm_compute;
    repeat (constructor; [cbn [In]; intros H; repeat (destruct H as [H|H]; [discriminate|]); exact H|]); constructor.
Qed.
Example ex_starts : starts_like (bs "0.piece") 0 /\ starts_like (bs "0.piece~") 0 /\ starts_like (bs "7.piece") 7.
Proof.
  split; [exists [], [], (bs "0"), []|split; [exists [], [], (bs "0"), (bs "~")|exists [], [], (bs "7"), []]];
    (split; [reflexivity|]; split; [constructor|]; split; [now left|]; split; [discriminate|]; split; vm_compute; reflexivity).
Qed.
Theorem C137_load_copes_refuted : config_ok ex_cfg /\ (forall t, ch_fail (PropStorage.ex_env t) = false) /\
  forall f, f = ex_backup \/ f = ex_number -> (exists name, stray ex_cfg f name) /\
  on_disk ex_cfg f 0 = Some (bs "ab") /\ verified PropStorage.ex_id ex_cfg 0 (bs "ab") /\
  forall tick, snd (load ex_cfg PropStorage.ex_env (booted ex_cfg f tick)) = Panic.
Proof.
  assert (ok : config_ok ex_cfg) by (apply PropStorage.ex_ok; auto). split; [exact ok|]. split; [reflexivity|]. intros f Hf.
  destruct (ex_keys f Hf) as (Nd & Et & Dd). destruct ex_starts as (S0 & S1 & S7).
  assert (exists name, stray ex_cfg f name) as [name St].
  { destruct Hf as [->| ->].
    - exists (bs "0.piece~"). split; [vm_compute; discriminate|]. exists 0. split; [exact S1|]. right. exists (bs "0.piece"). split; [discriminate|]. split; [vm_compute; discriminate|exact S0].
    - exists (bs "7.piece"). split; [vm_compute; discriminate|]. exists 7. split; [exact S7|]. left. vm_compute. intros [_ H]. discriminate. }
  split; [eauto|]. split; [destruct Hf as [->| ->]; vm_compute; reflexivity|]. split; [vm_compute; auto|].
  intros tick. now apply (C137_stray_name_panics ex_cfg PropStorage.ex_env ok f tick name).
Qed.
Print Assumptions C137_load_copes_refuted.
(** False as well: that what is found is verified before it is served.  A file of the right
    name and the wrong contents is advertised and handed out. *)
Definition ex_one : config := PropStorage.ex_cfg PropStorage.ex_one.
Definition ex_junk : fs := PropStorage.ex_fs ++ [(target ex_one, NFile (bs "xyz"))].
Theorem C137_found_is_verified_refuted : exists w ts,
  config_ok ex_one /\ NoDup (map fst ex_junk) /\
  execs PropStorage.ex_id ex_one PropStorage.ex_env (Dead ex_junk 0) [LStart; LCall (CGet 0 0 2); LStep 0] = Some (Running w ts, [Ret (CGet 0 0 2) (RBlock (bs "xy"))]) /\
  member (advertised w) 0 /\ ~ verified PropStorage.ex_id ex_one 0 (bs "xy").
Proof.
  eexists. eexists. split; [apply PropStorage.ex_ok; auto|]. split; [vm_compute; repeat (constructor; [cbn [In]; intros H; repeat (destruct H as [H|H]; [discriminate|]); exact H|]); constructor|].
  split; [vm_compute; reflexivity|]. split; [split; [lia|]; eexists; split; vm_compute; reflexivity|].
  intros V. vm_compute in V. destruct V as [_ V]. discriminate.
Qed.
Print Assumptions C137_found_is_verified_refuted.
(** A disk with odd names on which Load copes: they do not start like a piece. *)
Example C137_case_fine : exists w, load ex_cfg PropStorage.ex_env (booted ex_cfg (ex_with [(bs "0.piece", bs "ab"); (bs "x.piece", []); (bs "1.pie", []); (bs "~0.piece", [])]) 0) = (w, Ok tt) /\
  advertised w = [z2b 128].
Proof. eexists. split; vm_compute; reflexivity. Qed.
(** White space before the number counts for nothing, here a no-break space; a newline is no such. *)
Example C137_case_space : exists w w',
  load ex_cfg PropStorage.ex_env (booted ex_cfg (ex_with [(bs "0.piece", bs "ab"); ([z2b 194; z2b 160] ++ bs "0.piece", [])]) 0) = (w, Panic) /\
  load ex_cfg PropStorage.ex_env (booted ex_cfg (ex_with [(bs "0.piece", bs "ab"); (z2b 10 :: bs "0.piece", [])]) 0) = (w', Ok tt).
Proof. eexists. eexists. split; vm_compute; reflexivity. Qed.
(** An empty file is taken for the last piece. *)
Example C137_case_empty : exists w, load ex_cfg PropStorage.ex_env (booted ex_cfg (ex_with [(bs "1.piece~", [])]) 0) = (w, Ok tt) /\
  advertised w = [z2b 64] /\ ~ verified PropStorage.ex_id ex_cfg 1 [].
Proof. eexists. split; [vm_compute; reflexivity|]. split; [vm_compute; reflexivity|]. intros V. vm_compute in V. destruct V as [V _]. discriminate. Qed.
