(** More on what a step of the storage changes: the bitfield, and where errors come from. *)
From Verif Require Import GoBase GoBaseProofs Bitfield BitfieldSpec BitfieldProofs Metainfo MetainfoSpec
  Fs Storage StorageSys StorageSpec StorageSysSpec StorageMemSpec StorageProofs StorageSysProofs StorageClaimProofs.

(** * Relations that calls keep *)
Definition keeps {A} (R : mem -> mem -> Prop) (a : io A) : Prop := forall w, R (w_mem w) (w_mem (fst (a w))).
Section Keeps.
Variable R : mem -> mem -> Prop.
Hypothesis Rr : forall m, R m m.
Hypothesis Rt : forall a b c, R a b -> R b c -> R a c.
Set Default Proof Using "Type".
Lemma keeps_ret {A} (x : A) : keeps R (ret x). Proof using Rr. intros w. apply Rr. Qed.
Lemma keeps_fails {A} e : keeps R (@fails A e). Proof using Rr. intros w. apply Rr. Qed.
Lemma keeps_panics {A} : keeps R (@panics A). Proof using Rr. intros w. apply Rr. Qed.
Lemma keeps_act env ef : keeps R (act env ef).
Proof using Rr. intros w. unfold act. destruct (if ch_fail _ then _ else _); apply Rr. Qed.
Lemma keeps_look {A} env (q : _ -> _ -> option A) : keeps R (look env q).
Proof using Rr. intros w. apply Rr. Qed.
Lemma keeps_bind {A B} (a : io A) (k : A -> io B) : keeps R a -> (forall x, keeps R (k x)) -> keeps R (bind a k).
Proof using Rt.
  intros Ha Hk w. specialize (Ha w). unfold bind. destruct (a w) as [w' [x|e|]]; cbn [fst] in *; try exact Ha. eapply Rt; [exact Ha|apply Hk].
Qed.
Lemma keeps_get {B} (k : mem -> io B) : (forall w, R (w_mem w) (w_mem (fst (k (w_mem w) w)))) -> keeps R (bind get_mem k).
Proof using Type. intros H w. apply H. Qed.
Lemma keeps_finally {A} (a : io A) c : keeps R a -> keeps R c -> keeps R (finally a c).
Proof using Rt.
  intros Ha Hc w. specialize (Ha w). unfold finally. destruct (a w) as [w1 r]. specialize (Hc w1). destruct (c w1) as [w2 x]. eapply Rt; eassumption.
Qed.
Lemma keeps_temp env nd d p : keeps R (temp_file env nd d p).
Proof using Rr Rt. intros w. unfold temp_file. revert w. change (keeps R (fun w => bind (act env (fun c => make_temp nd c d p)) (fun _ => ret (d ++ [ch_name (env (w_tick w))])) w)).
  intros w. apply (keeps_bind (act env (fun c => make_temp nd c d p)) (fun _ => ret (d ++ [ch_name (env (w_tick w))]))); [apply keeps_act|intros _; apply keeps_ret]. Qed.
Lemma keeps_piece_at k : keeps R (piece_at k).
Proof using Rr. apply keeps_get. intros w. destruct (if k <? 0 then _ else _); apply Rr. Qed.
End Keeps.
Ltac kept := repeat first [ apply keeps_ret | apply keeps_fails | apply keeps_panics | apply keeps_act | apply keeps_look | apply keeps_temp | apply keeps_piece_at | apply keeps_finally
  | apply keeps_bind | match goal with |- forall _, _ => intro end | match goal with |- keeps _ (match ?x with _ => _ end) => destruct x end ].

(** Errors in futures do not appear, and pieces keep their futures. *)
Definition calm (m m' : mem) : Prop :=
  (forall id e, nth_error (t_futures m') id = Some (Some (Some e)) -> nth_error (t_futures m) id = Some (Some (Some e))) /\
  map pc_err (t_pieces m') = map pc_err (t_pieces m).
Lemma calm_refl m : calm m m. Proof. split; auto. Qed.
Lemma calm_trans a b c : calm a b -> calm b c -> calm a c.
Proof. intros [A B] [C D]. split; [auto|congruence]. Qed.
Definition same_bits (m m' : mem) : Prop := t_bitfield m' = t_bitfield m.
Lemma bits_refl m : same_bits m m. Proof. reflexivity. Qed.
Lemma bits_trans a b c : same_bits a b -> same_bits b c -> same_bits a c. Proof. unfold same_bits. congruence. Qed.
Lemma list_set_err {A} k (x y : A) (g : A -> nat) l : nth_error l k = Some y -> g x = g y -> map g (list_set k x l) = map g l.
Proof.
  revert k. induction l as [|z l IH]; intros [|k]; cbn; try discriminate; intros H E; [|f_equal; now apply IH].
  injection H as ->. now rewrite E.
Qed.
Lemma set_future_none id l j e : nth_error (list_set id (Some None) l) j = Some (Some (Some e)) -> nth_error l j = Some (Some (Some e)) :> option fut.
Proof. intros H. apply nth_error_list_set in H as [(-> & ? & _)|[_ H]]; [discriminate|exact H]. Qed.
Lemma deliver_calm id : keeps calm (deliver id None).
Proof.
  apply keeps_get. intros w. destruct (nth_error _ id) as [[x|]|] eqn:E; try apply calm_refl. split; [|reflexivity].
  intros j e. cbn. apply set_future_none.
Qed.
Lemma piece_at_inv k w p w' : piece_at k w = (w', Ok p) -> w' = w /\ 0 <= k /\ nth_error (t_pieces (w_mem w)) (Z.to_nat k) = Some p.
Proof.
  unfold piece_at, bind, get_mem. destruct (k <? 0) eqn:Z; [discriminate|]. destruct (nth_error _ _) eqn:E; [|discriminate]. intros [= <- <-]. split; [easy|]. split; [lia|easy].
Qed.
Lemma deliver_inv id v w r w' : deliver id v w = (w', r) -> match r with
  | Ok _ => nth_error (t_futures (w_mem w)) id = Some None /\ w' = with_mem w (with_futures (w_mem w) (list_set id (Some v) (t_futures (w_mem w))))
  | Err _ => False | Panic => w' = w end.
Proof.
  unfold deliver, bind, get_mem. destruct (nth_error _ id) as [[x|]|] eqn:E; intros [= <- <-]; auto.
Qed.
(** completePiece: all or, with a panic, part of it. *)
Lemma complete_piece_calm k : keeps calm (complete_piece k).
Proof.
  intros w. unfold complete_piece. unfold bind at 1. destruct (piece_at k w) as [w1 [p|e|]] eqn:P; [|pose proof (keeps_piece_at calm calm_refl k w) as X; rewrite P in X; exact X..].
  apply piece_at_inv in P as (-> & K & P). unfold bind at 1. destruct (deliver (pc_err p) None w) as [w1 [u|e|]] eqn:D; apply deliver_inv in D; [|destruct D|subst w1; apply calm_refl].
  destruct D as [D ->]. unfold set_piece, bind, get_mem, set_mem. cbn. destruct (bf_add _ _) as [b|]; cbn.
  all: split; [intros j e; apply set_future_none|now apply (list_set_err _ _ p)].
Qed.
Lemma complete_piece_bits k w w' : complete_piece k w = (w', Ok tt) ->
  exists p, nth_error (t_pieces (w_mem w)) (Z.to_nat k) = Some p /\ bf_add (t_bitfield (w_mem w)) (pc_index p) = Some (t_bitfield (w_mem w')).
Proof.
  unfold complete_piece. unfold bind at 1. destruct (piece_at k w) as [w1 [p|e|]] eqn:P; [|discriminate..].
  apply piece_at_inv in P as (-> & K & P). unfold bind at 1. destruct (deliver (pc_err p) None w) as [w1 [u|e|]] eqn:D; [|discriminate..]. apply deliver_inv in D as [D ->].
  unfold set_piece, bind, get_mem, set_mem. cbn. destruct (bf_add _ _) as [b|] eqn:B; [|discriminate]. intros [= <-]. cbn. eauto.
Qed.
Lemma complete_piece_no_err k w w' e : complete_piece k w <> (w', Err e).
Proof.
  unfold complete_piece. unfold bind at 1. destruct (piece_at k w) as [w1 [p|x|]] eqn:P; try discriminate.
  - unfold bind at 1. destruct (deliver (pc_err p) None w1) as [w2 [u|x|]] eqn:D; [|apply deliver_inv in D; destruct D|discriminate].
    unfold set_piece, bind, get_mem, set_mem. cbn. destruct (bf_add _ _); discriminate.
  - unfold piece_at, bind, get_mem in P. destruct (if k <? 0 then _ else _); discriminate.
Qed.
Lemma complete_torrent_calm : keeps calm complete_torrent.
Proof.
  intros w. unfold complete_torrent, bind at 1, get_mem. unfold bind, set_mem. eapply calm_trans; [|apply deliver_calm]. split; auto.
Qed.
Lemma complete_torrent_bits : keeps same_bits complete_torrent.
Proof. intros w. unfold complete_torrent, deliver, bind, get_mem, set_mem. cbn. destruct (nth_error _ _) as [[|]|]; reflexivity. Qed.

Section Sys.
Variable sha1 : bytes -> bytes.
Variable cfg : config.
Variable env : nat -> choice.
Set Default Proof Using "Type".

Lemma copy_files_keeps (R : mem -> mem -> Prop) (Rr : forall m, R m m) (Rt : forall a b c, R a b -> R b c -> R a c) temp files : forall data, keeps R (copy_files env temp files data).
Proof.
  induction files as [|f files IH]; intros data; cbn [copy_files]; [now apply keeps_ret|].
  apply keeps_bind; [exact Rt|destruct (f_path f); [now apply keeps_fails|now apply keeps_ret]|intros _].
  apply keeps_bind; [exact Rt|now apply keeps_act|intros _]. apply keeps_bind; [exact Rt|now apply keeps_act|intros _].
  apply keeps_bind; [exact Rt|now apply keeps_act|intros _]. apply keeps_bind; [exact Rt| |intros _; apply IH].
  destruct (_ <? _)%nat; [now apply keeps_fails|now apply keeps_ret].
Qed.
Lemma coalesce_pieces_keeps (R : mem -> mem -> Prop) (Rr : forall m, R m m) (Rt : forall a b c, R a b -> R b c -> R a c) : keeps R complete_torrent -> keeps R (coalesce_pieces cfg env).
Proof.
  intros Rc. unfold coalesce_pieces. apply keeps_get. intros w. destruct (negb _); [apply Rr|]. revert w.
  assert (forall a, keeps R a -> forall w, R (w_mem w) (w_mem (fst ((a : io unit) w)))) as X by auto.
  destruct (i_files _); apply X; unfold coalesce_single, coalesce_multi.
  - apply keeps_bind; [exact Rt|now apply keeps_act|intros _]. apply keeps_bind; [exact Rt|now apply keeps_temp|intros temp]. apply keeps_finally; [exact Rt| |now apply keeps_act].
    apply keeps_get. intros w. match goal with |- R _ (w_mem (fst (?a w))) => assert (keeps R a) as K; [|exact (K w)] end.
    apply keeps_bind; [exact Rt|now apply keeps_look|intros r]. apply keeps_bind; [exact Rt|now apply keeps_act|intros _].
    apply keeps_bind; [exact Rt|destruct (snd r); [now apply keeps_ret|now apply keeps_fails]|intros _]. apply keeps_bind; [exact Rt|now apply keeps_act|intros _]. apply keeps_bind; [exact Rt|now apply keeps_act|intros _]. exact Rc.
  - apply keeps_bind; [exact Rt|now apply keeps_act|intros _]. apply keeps_bind; [exact Rt|now apply keeps_temp|intros temp]. apply keeps_finally; [exact Rt| |now apply keeps_act].
    apply keeps_get. intros w. match goal with |- R _ (w_mem (fst (?a w))) => assert (keeps R a) as K; [|exact (K w)] end.
    apply keeps_bind; [exact Rt|now apply keeps_look|intros r]. apply keeps_bind; [exact Rt|now apply copy_files_keeps|intros _].
    apply keeps_bind; [exact Rt|now apply keeps_act|intros _]. apply keeps_bind; [exact Rt|now apply keeps_act|intros _]. exact Rc.
Qed.

Definition same_mem (m m' : mem) : Prop := m' = m.
(** coalesceBlocks: the memory changes only by completePiece, at the end. *)
Lemma coalesce_blocks_inv k w w' r : coalesce_blocks sha1 cfg env k w = (w', r) ->
  match r with
  | Err _ => w_mem w' = w_mem w
  | Ok _ => w_mem w' = w_mem w \/ exists w1 w2, w_mem w1 = w_mem w /\ complete_piece k w1 = (w2, Ok tt) /\ w_mem w' = w_mem w2
  | Panic => calm (w_mem w) (w_mem w')
  end.
Proof.
  assert (forall m, same_mem m m) as Sr by reflexivity. assert (forall a b c, same_mem a b -> same_mem b c -> same_mem a c) as St by (unfold same_mem; congruence).
  intros H. unfold coalesce_blocks in H. unfold bind at 1 in H. pose proof (keeps_piece_at same_mem Sr k w) as P0. unfold same_mem in P0.
  destruct (piece_at k w) as [w1 [p|e|]] eqn:P; cbn [fst] in P0; [|injection H as <- <-; first [exact P0|rewrite P0; apply calm_refl]..].
  destruct (negb _); [injection H as <- <-; now left|].
  unfold bind at 1 in H. match type of H with context [act env ?ef w1] => pose proof (keeps_act same_mem Sr env ef w1) as A1; unfold same_mem in A1; destruct (act env ef w1) as [w2 [u|e|]] end; cbn [fst] in A1;
    [|injection H as <- <-; rewrite ?A1; first [exact P0|rewrite P0; apply calm_refl]..].
  unfold bind at 1 in H. match type of H with context [temp_file env ?a ?b ?c w2] => pose proof (keeps_temp same_mem Sr St env a b c w2) as A2; unfold same_mem in A2; destruct (temp_file env a b c w2) as [w3 [temp|e|]] end; cbn [fst] in A2;
    [|injection H as <- <-; rewrite ?A2, ?A1; first [exact P0|rewrite P0; apply calm_refl]..].
  unfold finally in H. match type of H with (let (_, _) := ?a w3 in _) = _ => destruct (a w3) as [w4 r4] eqn:B end.
  match type of H with context [act env ?ef w4] => pose proof (keeps_act same_mem Sr env ef w4) as A4; unfold same_mem in A4; destruct (act env ef w4) as [w5 r5] end. cbn [fst] in A4. injection H as <- <-.
  assert (M3 : w_mem w3 = w_mem w) by congruence. clear P0 A1 A2 P u. rewrite A4. clear A4 w5 r5.
  destruct (all_blocks _) as [data|]; [|injection B as <- <-; rewrite M3; apply calm_refl].
  unfold bind at 1 in B. match type of B with context [act env ?ef w3] => pose proof (keeps_act same_mem Sr env ef w3) as A5; unfold same_mem in A5; destruct (act env ef w3) as [w6 [u|e|]] end; cbn [fst] in A5;
    [|injection B as <- <-; rewrite ?A5, ?M3; first [reflexivity|apply calm_refl]..].
  destruct (negb _); [injection B as <- <-; congruence|].
  unfold bind at 1 in B. match type of B with context [act env ?ef w6] => pose proof (keeps_act same_mem Sr env ef w6) as A6; unfold same_mem in A6; destruct (act env ef w6) as [w7 [u1|e|]] end; cbn [fst] in A6;
    [|injection B as <- <-; rewrite ?A6, ?A5, ?M3; first [reflexivity|apply calm_refl]..].
  unfold bind at 1 in B. match type of B with context [act env ?ef w7] => pose proof (keeps_act same_mem Sr env ef w7) as A7; unfold same_mem in A7; destruct (act env ef w7) as [w8 [u2|e|]] end; cbn [fst] in A7;
    [|injection B as <- <-; rewrite ?A7, ?A6, ?A5, ?M3; first [reflexivity|apply calm_refl]..].
  assert (M8 : w_mem w8 = w_mem w) by congruence. destruct r4 as [[]|e|].
  - right. exists w8, w4. auto.
  - now apply complete_piece_no_err in B.
  - rewrite <- M8. pose proof (complete_piece_calm k w8) as X. rewrite B in X. exact X.
Qed.
(** What coalesceBlocks can fail with. *)
Definition fatal (e : serr) : Prop := e = EIO \/ exists x g h, e = EChecksum x g h.
Definition fails_so {A} (m : io A) : Prop := forall w w' e, m w = (w', Err e) -> fatal e.
Lemma so_bind {A B} (m : io A) (f : A -> io B) : fails_so m -> (forall x, fails_so (f x)) -> fails_so (bind m f).
Proof. intros M F w w' e. unfold bind. destruct (m w) as [w1 [x|x|]] eqn:E; intros H; [exact (F _ _ _ _ H)|injection H as _ <-; exact (M _ _ _ E)|discriminate]. Qed.
Lemma so_act ef : fails_so (act env ef).
Proof. intros w w' e. unfold act. destruct (if ch_fail _ then _ else _); intros H; [discriminate|]. injection H as _ <-. now left. Qed.
Lemma so_temp a b c : fails_so (temp_file env a b c).
Proof.
  intros w w' e H. unfold temp_file in H. revert H. match goal with |- ?m w = _ -> _ => assert (fails_so m) as F; [|exact (F w w' e)] end.
  apply so_bind; [apply so_act|intros _ ? ? ? H; discriminate H].
Qed.
Lemma so_piece k : fails_so (piece_at k).
Proof. intros w w' e. unfold piece_at, bind, get_mem. destruct (if k <? 0 then _ else _); discriminate. Qed.
Lemma so_blocks k : fails_so (coalesce_blocks sha1 cfg env k).
Proof.
  unfold coalesce_blocks. apply so_bind; [apply so_piece|intros p]. destruct (negb _); [intros w w' e H; discriminate H|].
  apply so_bind; [apply so_act|intros _]. apply so_bind; [apply so_temp|intros temp]. intros w w' e H. unfold finally in H.
  match type of H with (let (_, _) := ?a w in _) = _ => destruct (a w) as [w4 r4] eqn:B end. destruct (act env _ w4) as [w5 r5]. injection H as _ ->. revert B.
  match goal with |- ?m w = _ -> _ => assert (fails_so m) as F; [|exact (F w w4 e)] end. destruct (all_blocks _) as [data|]; [|intros ? ? ? H; discriminate H].
  apply so_bind; [apply so_act|intros _]. destruct (negb _); [intros ? ? ? H; injection H as _ <-; right; eauto|].
  apply so_bind; [apply so_act|intros _]. apply so_bind; [apply so_act|intros _]. intros w1 w1' e1 H. now apply complete_piece_no_err in H.
Qed.
(** The futures after PutBlock's second half: an error is the one it returns. *)
Lemma put_finish_errors k w w' r : put_finish sha1 cfg env k w = (w', r) ->
  map pc_err (t_pieces (w_mem w')) = map pc_err (t_pieces (w_mem w)) /\
  forall id e, nth_error (t_futures (w_mem w')) id = Some (Some (Some e)) -> nth_error (t_futures (w_mem w)) id = Some (Some (Some e)) \/
    (r = Err e /\ fatal e /\ exists p, 0 <= k /\ nth_error (t_pieces (w_mem w)) (Z.to_nat k) = Some p /\ id = pc_err p).
Proof.
  unfold put_finish. destruct (coalesce_blocks sha1 cfg env k w) as [w1 [u|e|]] eqn:C; pose proof C as C0; apply coalesce_blocks_inv in C.
  - intros H. assert (calm (w_mem w) (w_mem w1)) as X.
    { destruct C as [->|(w2 & w3 & E1 & E2 & ->)]; [apply calm_refl|]. pose proof (complete_piece_calm k w2) as X. rewrite E2, E1 in X. exact X. }
    pose proof (coalesce_pieces_keeps calm calm_refl calm_trans complete_torrent_calm w1) as Y. rewrite H in Y. cbn [fst] in Y.
    destruct (calm_trans _ _ _ X Y) as [A B]. split; [exact B|]. intros id e E. left. auto.
  - intros H. unfold bind at 1 in H. destruct (piece_at k w1) as [w2 [p|x|]] eqn:P.
    + apply piece_at_inv in P as (-> & K & P). rewrite C in P. unfold add_downloaded, bind at 1, get_mem, set_mem, bind at 1 in H. unfold bind, fails in H.
      match type of H with context [deliver ?a ?b ?c] => destruct (deliver a b c) as [w3 [v|x|]] eqn:D; apply deliver_inv in D end; [| destruct D|].
      * destruct D as [D ->]. injection H as <- <-. cbn in *. rewrite C in *. split; [reflexivity|].
        intros id e' E. apply nth_error_list_set in E as [(-> & E & _)|[_ E]]; [|now left]. injection E as ->. right. apply so_blocks in C0. eauto 7.
      * subst w3. injection H as <- <-. cbn. rewrite C. split; [reflexivity|]. intros; now left.
    + unfold piece_at, bind, get_mem in P. destruct (if k <? 0 then _ else _); discriminate.
    + unfold piece_at, bind, get_mem in P. destruct (if k <? 0 then _ else _); [discriminate|]. injection P as <-. injection H as <- <-. rewrite C. split; [reflexivity|]. intros; now left.
  - intros [= <- <-]. destruct C as [A B]. split; [exact B|]. intros; left; auto.
Qed.
Lemma put_finish_bits k w w' r : put_finish sha1 cfg env k w = (w', r) -> r <> Panic ->
  t_bitfield (w_mem w') = t_bitfield (w_mem w) \/
  exists p, 0 <= k /\ nth_error (t_pieces (w_mem w)) (Z.to_nat k) = Some p /\ bf_add (t_bitfield (w_mem w)) (pc_index p) = Some (t_bitfield (w_mem w')).
Proof.
  unfold put_finish. destruct (coalesce_blocks sha1 cfg env k w) as [w1 [u|e|]] eqn:C; apply coalesce_blocks_inv in C; intros H NP.
  - pose proof (coalesce_pieces_keeps same_bits bits_refl bits_trans complete_torrent_bits w1) as Y. rewrite H in Y. cbn [fst] in Y. unfold same_bits in Y. rewrite Y.
    destruct C as [->|(w2 & w3 & E1 & E2 & ->)]; [now left|]. right. pose proof E2 as E3. apply complete_piece_bits in E2 as (p & P & B). rewrite E1 in *. exists p.
    split; [|auto]. unfold complete_piece, bind at 1 in E3. destruct (piece_at k w2) as [w4 [q|x|]] eqn:Q; [|discriminate..]. now apply piece_at_inv in Q.
  - left. unfold bind at 1 in H. destruct (piece_at k w1) as [w2 [p|x|]] eqn:P; [|injection H as <- <-..].
    + apply piece_at_inv in P as (-> & K & P). unfold add_downloaded, bind at 1, get_mem, set_mem, bind at 1 in H. unfold bind, fails in H.
      match type of H with context [deliver ?a ?b ?c] => destruct (deliver a b c) as [w3 [v|x|]] eqn:D; apply deliver_inv in D end; [| destruct D|];
      injection H as <- <-; [destruct D as [D ->]|subst w3]; cbn; now rewrite C.
    + unfold piece_at, bind, get_mem in P. destruct (if k <? 0 then _ else _); discriminate.
    + congruence.
  - injection H as <- <-. congruence.
Qed.
Lemma get_block_mem k b len w : w_mem (fst (get_block cfg env k b len w)) = w_mem w.
Proof.
  assert (forall m, same_mem m m) as Sr by reflexivity. assert (forall a b c, same_mem a b -> same_mem b c -> same_mem a c) as St by (unfold same_mem; congruence).
  assert (forall p, keeps same_mem (open_file env p)) as KO by (intros p; now apply keeps_look).
  assert (KM : forall files total start fin got, keeps same_mem (get_multi_loop cfg env files total start fin len got)).
  { induction files as [|f files IH]; intros; cbn [get_multi_loop]; [now apply keeps_ret|]. destruct (_ <=? _); [now apply keeps_ret|]. destruct (_ <=? _); [|apply IH].
    apply keeps_bind; [exact St|apply KO|intros d]. destruct (_ <? 0); [now apply keeps_fails|apply IH]. }
  enough (keeps same_mem (get_block cfg env k b len)) as K by exact (K w).
  unfold get_block. apply keeps_get. intros w0. destruct (t_coalesced _).
  - match goal with |- same_mem _ (w_mem (fst (?a w0))) => assert (keeps same_mem a) as K; [|exact (K w0)] end. destruct (i_files _).
    + apply keeps_bind; [exact St|apply KO|intros d]. destruct (negb _); [now apply keeps_panics|]. cbn zeta. destruct (_ <? 0); [now apply keeps_fails|]. destruct (read_at _ _ _) as [x []]; [now apply keeps_fails|now apply keeps_ret].
    + unfold get_from_multi. destruct (negb _); [now apply keeps_panics|]. cbn zeta. apply keeps_bind; [exact St|apply KM|intros d]. destruct (_ <? _); [now apply keeps_fails|now apply keeps_ret].
  - match goal with |- same_mem _ (w_mem (fst (?a w0))) => assert (keeps same_mem a) as K; [|exact (K w0)] end.
    apply keeps_bind; [exact St|now apply keeps_piece_at|intros p]. destruct (negb _); [now apply keeps_fails|]. unfold get_from_piece.
    apply keeps_bind; [exact St|apply KO|intros d]. destruct (negb _); [now apply keeps_panics|]. destruct (_ <? 0); [now apply keeps_fails|]. destruct (read_at _ _ _) as [x []]; [now apply keeps_fails|now apply keeps_ret].
Qed.

Lemma put_in_piece_mem k b d w : let m' := w_mem (fst (put_in_piece k b d w)) in calm (w_mem w) m' /\ same_bits (w_mem w) m'.
Proof.
  cbn zeta. unfold put_in_piece. unfold bind at 1 2. destruct (piece_at k w) as [w1 [p|e|]] eqn:P.
  - apply piece_at_inv in P as (-> & K & P). destruct (pc_coalesced p); [split; [apply calm_refl|reflexivity]|].
    destruct (match pc_blocks p with Some l => Some l | None => _ end) as [l|]; [|split; [apply calm_refl|reflexivity]].
    destruct (if Z.quot b BL <? 0 then None else nth_error l (Z.to_nat (Z.quot b BL))) as [[x|]|]; try (split; [apply calm_refl|reflexivity]).
    unfold set_piece, bind, get_mem, set_mem. cbn. split; [|reflexivity]. split; [auto|]. now apply (list_set_err _ _ p).
  - unfold piece_at, bind, get_mem in P. destruct (if k <? 0 then _ else _); discriminate.
  - unfold piece_at, bind, get_mem in P. destruct (if k <? 0 then _ else _); [discriminate|]. injection P as <-. split; [apply calm_refl|reflexivity].
Qed.
(** ResetPiece replaces the future of its piece by a new one. *)
Lemma reset_piece_mem k w w' r : reset_piece k w = (w', r) -> same_bits (w_mem w) (w_mem w') /\
  match r with
  | Ok _ => exists p, 0 <= k /\ nth_error (t_pieces (w_mem w)) (Z.to_nat k) = Some p /\
      t_futures (w_mem w') = list_set (pc_err p) (Some (Some EReset)) (t_futures (w_mem w)) ++ [None] /\
      exists q, t_pieces (w_mem w') = list_set (Z.to_nat k) q (t_pieces (w_mem w)) /\ pc_err q = List.length (t_futures (w_mem w))
  | _ => w_mem w' = w_mem w
  end.
Proof.
  unfold reset_piece. unfold bind at 1. destruct (piece_at k w) as [w1 [p|e|]] eqn:P.
  - apply piece_at_inv in P as (-> & K & P). unfold bind at 1. destruct (deliver (pc_err p) (Some EReset) w) as [w1 [u|e|]] eqn:D; apply deliver_inv in D; [|destruct D|].
    + destruct D as [D ->]. unfold set_piece, bind, get_mem, set_mem. cbn. intros [= <- <-]. cbn. split; [reflexivity|]. exists p. split; [exact K|]. split; [exact P|]. split; [reflexivity|].
      eexists. split; [reflexivity|]. cbn. now rewrite list_set_length.
    + subst w1. intros [= <- <-]. split; reflexivity.
  - unfold piece_at, bind, get_mem in P. destruct (if k <? 0 then _ else _); discriminate.
  - unfold piece_at, bind, get_mem in P. destruct (if k <? 0 then _ else _); [discriminate|]. injection P as <-. intros [= <- <-]. split; reflexivity.
Qed.
Lemma load_calm : keeps calm (load cfg env).
Proof.
  pose proof calm_refl as Rr. pose proof calm_trans as Rt.
  assert (KA : forall k, keeps calm (add_downloaded k)) by (intros k w; split; auto).
  assert (KC : forall n k, keeps calm (complete_all n k)).
  { induction n as [|n IH]; intros k; cbn [complete_all]; [now apply keeps_ret|]. apply keeps_bind; [exact Rt|apply complete_piece_calm|intros _; apply IH]. }
  assert (KL : forall l, keeps calm (load_entries cfg env l)).
  { induction l as [|x l IH]; cbn [load_entries]; [now apply keeps_ret|]. destruct (scan_piece_name x) as [i|]; [|exact IH].
    apply keeps_bind; [exact Rt|now apply keeps_look|intros z]. apply keeps_bind; [exact Rt|apply KA|intros _]. apply keeps_bind; [exact Rt|apply complete_piece_calm|intros _; exact IH]. }
  unfold load. apply keeps_bind; [exact Rt|now apply keeps_look|intros [size|]].
  - apply keeps_bind; [exact Rt|apply KC|intros _]. apply keeps_bind; [exact Rt|apply complete_torrent_calm|intros _; apply KA].
  - apply keeps_bind; [exact Rt|now apply keeps_look|intros [l|]]; [|now apply keeps_ret].
    apply keeps_bind; [exact Rt|apply KL|intros _]. apply coalesce_pieces_keeps; auto. apply complete_torrent_calm.
Qed.

(** * Steps *)
Hypothesis ok : config_ok cfg.
Notation exec := (exec sha1 cfg env).
Notation execs := (execs sha1 cfg env).
Notation inv := (inv sha1 cfg).
Lemma step_shape w ts j p es : exec (Running w ts) (LStep j) = Some (p, es) ->
  exists t o, nth_error ts j = Some t /\ next sha1 cfg env (forget_past w) ts t = Some o /\
  match o with
  | Goes w' q => p = Running w' (list_set j {| th_call := th_call t; th_pc := q |} ts) /\ es = events_of (th_call t) q
  | Panics w' => p = Dead (w_fs w') (w_tick w') /\ es = []
  end.
Proof.
  cbn. destruct (nth_error ts j) as [t|]; [|discriminate]. destruct (next sha1 cfg env (forget_past w) ts t) as [[w' q|w']|] eqn:N; [| |discriminate]; intros [= <- <-]; exists t; eexists; (split; [reflexivity|]); (split; [exact N|]); split; reflexivity.
Qed.
Lemma step_bits base w ts j w' ts' es t : inv base (Running w ts) -> exec (Running w ts) (LStep j) = Some (Running w' ts', es) -> nth_error ts j = Some t ->
  t_bitfield (w_mem w') = t_bitfield (w_mem w) \/
  exists k b d r, th_call t = CPut k b d /\ es = [Ret (CPut k b d) r] /\ 0 <= k < num_pieces (c_info cfg) /\ bf_add (t_bitfield (w_mem w)) k = Some (t_bitfield (w_mem w')).
Proof using ok.
  intros I E T. apply step_shape in E as (t' & o & T' & N & E). assert (t' = t) as -> by congruence. destruct o as [w1 q|w1]; [|destruct E; discriminate].
  destruct E as [E ->]. injection E as -> ->. pose proof (proj2 (proj2 (proj2 I)) _ _ T) as TO. unfold next in N. unfold thread_ok in TO.
  destruct (th_pc t) as [| | | |id|x] eqn:Ep, (th_call t) as [k b d|k b len|k|k|] eqn:Ec; cbn [w_mem forget_past] in N; try discriminate N; try contradiction TO.
  - left. destruct (check_block_size _ _ _ _); [injection N as <- <-; reflexivity|]. destruct (t_coalesced _); injection N as <- <-; reflexivity.
  - left. destruct (t_coalesced _).
    + injection N as N. pose proof (get_block_mem k b len (forget_past w)) as M. destruct (get_block cfg env k b len (forget_past w)) as [w2 []]; cbn in N, M; try discriminate N; injection N as <- <-; now rewrite M.
    + unfold piece_at, bind, get_mem in N. cbn [w_mem forget_past] in N. destruct (if k <? 0 then _ else _); [|discriminate]. injection N as <- <-. reflexivity.
  - left. destruct (piece_locked k ts); [discriminate|]. injection N as N. destruct (reset_piece k (forget_past w)) as [w2 r] eqn:R. apply reset_piece_mem in R as [R _]. destruct r; cbn in N; try discriminate N; injection N as <- <-; exact R.
  - left. destruct (piece_locked k ts); [discriminate|]. unfold piece_at, bind, get_mem in N. cbn [w_mem forget_past] in N. destruct (if k <? 0 then _ else _); [|discriminate]. injection N as <- <-. reflexivity.
  - left. destruct (torrent_rlocked ts); [discriminate|]. injection N as <- <-. reflexivity.
  - left. destruct (piece_locked k ts); [discriminate|]. pose proof (put_in_piece_mem k b d (forget_past w)) as [_ M]. destruct (put_in_piece k b d (forget_past w)) as [w2 []]; cbn in N, M; try discriminate N; injection N as <- <-; exact M.
  - destruct (torrent_rlocked ts); [discriminate|]. injection N as N. destruct (put_finish sha1 cfg env k (forget_past w)) as [w2 r] eqn:R.
    assert (r <> Panic) as NP by (destruct r; cbn in N; congruence). pose proof (put_finish_bits _ _ _ _ R NP) as B. cbn [forget_past w_mem] in B.
    assert (w2 = w1) as -> by (destruct r; cbn in N; congruence). destruct B as [B|(p & K & P & B)]; [now left|]. right.
    destruct (proj1 (proj2 (proj1 (proj1 (proj2 I)))) _ _ P) as (X & _). rewrite X, Z2Nat.id in B by lia.
    destruct r as [u|e|]; cbn in N; [| |congruence]; injection N as <-; exists k, b, d; eexists; cbn; repeat split; try lia; auto; apply TO.
  - left. destruct (piece_locked k ts); [discriminate|]. injection N as N. pose proof (get_block_mem k b len (forget_past w)) as M. destruct (get_block cfg env k b len (forget_past w)) as [w2 []]; cbn in N, M; try discriminate N; injection N as <- <-; now rewrite M.
  - left. destruct (nth_error _ id) as [[[|]|]|]; try discriminate N; injection N as <- <-; reflexivity.
  - left. destruct (nth_error _ id) as [[[|]|]|]; try discriminate N; injection N as <- <-; reflexivity.
Qed.
(** If waiting for a piece gives an error, a PutBlock of that piece returned it. *)
Definition failed_at (k : nat) (p : proc) (es : list event) : Prop :=
  match p with
  | Running w _ => forall q e, nth_error (t_pieces (w_mem w)) k = Some q -> nth_error (t_futures (w_mem w)) (pc_err q) = Some (Some (Some e)) ->
      fatal e /\ exists b d, In (Ret (CPut (Z.of_nat k) b d) (RErr e)) es
  | Dead _ _ => True
  end.
Definition failed_ok (p : proc) (es : list event) : Prop := forall k, failed_at k p es.
Lemma failed_more n p es es' : failed_at n p es -> failed_at n p (es ++ es').
Proof. destruct p as [w ts|]; [|easy]. intros H q e Q E. destruct (H _ _ Q E) as (FT & b & d & I). split; [exact FT|]. exists b, d. apply in_or_app. now left. Qed.
Lemma calm_failed k w w' ts ts' es : calm (w_mem w) (w_mem w') -> failed_at k (Running w ts) es -> failed_at k (Running w' ts') es.
Proof.
  intros [A B] H q e Q E. assert (X : nth_error (map pc_err (t_pieces (w_mem w'))) k = Some (pc_err q)) by (now apply map_nth_error).
  rewrite B in X. apply nth_error_map in X || rewrite nth_error_map in X. destruct (nth_error (t_pieces (w_mem w)) k) as [q0|] eqn:Q0; [|discriminate]. injection X as X.
  apply (H q0 e Q0). rewrite X. now apply A.
Qed.
Lemma new_mem_futures i id e : nth_error (t_futures (new_mem i)) id <> Some (Some (Some e)).
Proof. unfold new_mem. cbn [t_futures]. intros X. apply nth_error_In, repeat_spec in X. discriminate. Qed.
Lemma failed_step k' base p es l p' es' : inv base p -> failed_at k' p es -> exec p l = Some (p', es') -> failed_at k' p' (es ++ es').
Proof using ok.
  intros I H E. destruct p as [w ts|f tick].
  2:{ destruct l; try discriminate E; unfold StorageSys.exec in E.
      - destruct (load cfg env (booted cfg f tick)) as [w r] eqn:L. pose proof (load_calm (booted cfg f tick)) as C. rewrite L in C. cbn [fst] in C.
        destruct r; injection E as <- <-; try exact Logic.I. apply failed_more. intros q e Q X. apply C in X. exfalso. revert X. apply new_mem_futures.
      - unfold crash_at in E. destruct (nth_error _ _); [|discriminate]. injection E as <- <-. exact Logic.I. }
  destruct l as [c|j| |j x| |]; try discriminate E.
  - injection E as <- <-. apply failed_more. exact H.
  - pose proof E as E0. apply step_shape in E as (t & o & T & N & E). destruct o as [w1 q|w1]; [|destruct E as [-> _]; exact Logic.I].
    destruct E as [-> ->]. pose proof (proj2 (proj2 (proj2 I)) _ _ T) as TO. unfold next in N. unfold thread_ok in TO.
    assert (CALM : calm (w_mem w) (w_mem w1) -> failed_at k' (Running w1 (list_set j {| th_call := th_call t; th_pc := q |} ts)) (es ++ events_of (th_call t) q)).
    { intros C. apply failed_more. eapply calm_failed; [exact C|exact H]. }
    destruct (th_pc t) as [| | | |id|x] eqn:Ep, (th_call t) as [k b d|k b len|k|k|] eqn:Ec; cbn [w_mem forget_past] in N; try discriminate N; try contradiction TO.
    + apply CALM. destruct (check_block_size _ _ _ _); [injection N as <- <-; apply calm_refl|]. destruct (t_coalesced _); injection N as <- <-; apply calm_refl.
    + apply CALM. destruct (t_coalesced _).
      * injection N as N. pose proof (get_block_mem k b len (forget_past w)) as M. destruct (get_block cfg env k b len (forget_past w)) as [w2 []]; cbn in N, M; try discriminate N; injection N as <- <-; rewrite M; apply calm_refl.
      * unfold piece_at, bind, get_mem in N. cbn [w_mem forget_past] in N. destruct (if k <? 0 then _ else _); [|discriminate]. injection N as <- <-. apply calm_refl.
    + destruct (piece_locked k ts); [discriminate|]. injection N as N. destruct (reset_piece k (forget_past w)) as [w2 r] eqn:R. apply reset_piece_mem in R as [_ R]. cbn [w_mem forget_past] in R.
      destruct r; cbn in N; try discriminate N; injection N as <- <-; [|apply CALM; rewrite R; apply calm_refl]. destruct R as (p & K & P & Fu & q1 & Pi & Er). apply failed_more. intros q' e' Q' E'. rewrite Pi in Q'. rewrite Fu in E'.
      apply nth_error_list_set in Q' as [(-> & -> & _)|[Ne Q']].
      * rewrite Er, nth_error_app2 in E' by (rewrite list_set_length; lia). rewrite list_set_length, Nat.sub_diag in E'. discriminate E'.
      * pose proof (proj1 (proj1 (proj2 I))) as MI. destruct (nth_error (list_set (pc_err p) (Some (Some EReset)) (t_futures (w_mem w))) (pc_err q')) as [v|] eqn:V.
        -- rewrite nth_error_app1 in E' by (apply nth_error_Some; congruence). apply nth_error_list_set in E' as [(X & _ & _)|[_ E']]; [|exact (H q' e' Q' E')].
           exfalso. apply Ne. exact (err_inj sha1 cfg env ok _ _ _ _ _ _ MI Q' P X).
        -- apply nth_error_None in V. rewrite nth_error_app2 in E' by exact V. destruct (_ - _)%nat as [|[|]]; discriminate E'.
    + apply CALM. destruct (piece_locked k ts); [discriminate|]. unfold piece_at, bind, get_mem in N. cbn [w_mem forget_past] in N. destruct (if k <? 0 then _ else _); [|discriminate]. injection N as <- <-. apply calm_refl.
    + apply CALM. destruct (torrent_rlocked ts); [discriminate|]. injection N as <- <-. apply calm_refl.
    + apply CALM. destruct (piece_locked k ts); [discriminate|]. pose proof (put_in_piece_mem k b d (forget_past w)) as [M _]. destruct (put_in_piece k b d (forget_past w)) as [w2 []]; cbn in N, M; try discriminate N; injection N as <- <-; exact M.
    + destruct (torrent_rlocked ts); [discriminate|]. injection N as N. destruct (put_finish sha1 cfg env k (forget_past w)) as [w2 r] eqn:R. apply put_finish_errors in R as [R1 R2]. cbn [w_mem forget_past] in R1, R2.
      assert (w2 = w1) as -> by (destruct r; cbn in N; congruence).
      intros q' e' Q' E'. assert (X : nth_error (map pc_err (t_pieces (w_mem w1))) k' = Some (pc_err q')) by (now apply map_nth_error).
      rewrite R1, nth_error_map in X. destruct (nth_error (t_pieces (w_mem w)) k') as [q0|] eqn:Q0; [|discriminate]. injection X as X.
      destruct (R2 _ _ E') as [O|(-> & FT & p & K & P & Ep')].
      * rewrite <- X in O. destruct (H _ _ Q0 O) as (FT & b' & d' & In'). split; [exact FT|]. exists b', d'. apply in_or_app. now left.
      * assert (k' = Z.to_nat k) as -> by (apply (err_inj sha1 cfg env ok _ _ _ _ _ _ (proj1 (proj1 (proj2 I))) Q0 P); congruence).
        rewrite Z2Nat.id by lia. split; [exact FT|]. exists b, d. cbn in N. injection N as <-. apply in_or_app. right. now left.
    + apply CALM. destruct (piece_locked k ts); [discriminate|]. injection N as N. pose proof (get_block_mem k b len (forget_past w)) as M. destruct (get_block cfg env k b len (forget_past w)) as [w2 []]; cbn in N, M; try discriminate N; injection N as <- <-; rewrite M; apply calm_refl.
    + apply CALM. destruct (nth_error _ id) as [[[|]|]|]; try discriminate N; injection N as <- <-; apply calm_refl.
    + apply CALM. destruct (nth_error _ id) as [[[|]|]|]; try discriminate N; injection N as <- <-; apply calm_refl.
  - injection E as <- <-. exact Logic.I.
  - cbn in E. destruct (nth_error ts j); [|discriminate]. destruct (next _ _ _ _ _ _); [|discriminate]. unfold crash_at in E. destruct (nth_error _ _); [|discriminate]. injection E as <- <-. exact Logic.I.
Qed.
Lemma failed_run f tick ls p es : untouched cfg f -> execs (Dead f tick) ls = Some (p, es) -> failed_ok p es.
Proof using ok.
  intros U. assert (forall ls p0 es0, inv f p0 -> failed_ok p0 es0 -> forall p es, execs p0 ls = Some (p, es) -> failed_ok p (es0 ++ es)) as G.
  { clear ls p es. induction ls as [|l ls IH]; intros p0 es0 I0 F0 p es E; cbn in E; [injection E as <- <-; now rewrite app_nil_r|].
    destruct (exec p0 l) as [[p1 es1]|] eqn:E1; [|discriminate]. destruct (execs p1 ls) as [[p2 es2]|] eqn:E2; [|discriminate]. injection E as <- <-.
    rewrite app_assoc. apply (IH p1 (es0 ++ es1)); [|intros k; eapply failed_step; [exact I0|exact (F0 k)|exact E1]|exact E2].
    exact (proj1 (exec_ok sha1 cfg env ok _ _ _ _ _ I0 E1)). }
  intros E. apply (G ls (Dead f tick) [] (inv_start sha1 cfg env ok f tick U) (fun _ => Logic.I) p es E).
Qed.

(** * Waiters, and pieces that failed *)
(** A step changes the futures of no piece, except ResetPiece. *)
Lemma step_errs base w ts j w' ts' es t : inv base (Running w ts) -> exec (Running w ts) (LStep j) = Some (Running w' ts', es) -> nth_error ts j = Some t ->
  map pc_err (t_pieces (w_mem w')) = map pc_err (t_pieces (w_mem w)) \/
  exists k p q, th_call t = CReset k /\ ts' = list_set j {| th_call := CReset k; th_pc := Done RNil |} ts /\ 0 <= k /\ nth_error (t_pieces (w_mem w)) (Z.to_nat k) = Some p /\ nth_error (t_futures (w_mem w)) (pc_err p) = Some None /\
    t_futures (w_mem w') = list_set (pc_err p) (Some (Some EReset)) (t_futures (w_mem w)) ++ [None] /\
    t_pieces (w_mem w') = list_set (Z.to_nat k) q (t_pieces (w_mem w)) /\ pc_err q = List.length (t_futures (w_mem w)).
Proof using ok.
  intros I E T. apply step_shape in E as (t' & o & T' & N & E). assert (t' = t) as -> by congruence. destruct o as [w1 q|w1]; [|destruct E; discriminate].
  destruct E as [E _]. injection E as -> ->. pose proof (proj2 (proj2 (proj2 I)) _ _ T) as TO. unfold next in N. unfold thread_ok in TO.
  destruct (th_pc t) as [| | | |id|x] eqn:Ep, (th_call t) as [k b d|k b len|k|k|] eqn:Ec; cbn [w_mem forget_past] in N; try discriminate N; try contradiction TO.
  - left. destruct (check_block_size _ _ _ _); [injection N as <- <-; reflexivity|]. destruct (t_coalesced _); injection N as <- <-; reflexivity.
  - left. destruct (t_coalesced _).
    + injection N as N. pose proof (get_block_mem k b len (forget_past w)) as M. destruct (get_block cfg env k b len (forget_past w)) as [w2 []]; cbn in N, M; try discriminate N; injection N as <- <-; now rewrite M.
    + unfold piece_at, bind, get_mem in N. cbn [w_mem forget_past] in N. destruct (if k <? 0 then _ else _); [|discriminate]. injection N as <- <-. reflexivity.
  - destruct (piece_locked k ts); [discriminate|]. injection N as N. destruct (reset_piece k (forget_past w)) as [w2 r] eqn:R. pose proof R as R0. apply reset_piece_mem in R as [_ R]. cbn [w_mem forget_past] in R.
    destruct r; cbn in N; try discriminate N; injection N as <- <-; [|left; now rewrite R]. destruct R as (p & K & P & Fu & q1 & Pi & Er). right. exists k, p, q1. repeat split; auto.
    unfold reset_piece, bind at 1 in R0. destruct (piece_at k (forget_past w)) as [w3 [p'|x|]] eqn:Q; [|discriminate..]. apply piece_at_inv in Q as (-> & _ & Q). cbn in Q. assert (p' = p) as -> by congruence.
    unfold bind at 1 in R0. destruct (deliver (pc_err p) (Some EReset) (forget_past w)) as [w3 [v|x|]] eqn:D; [|discriminate..]. apply deliver_inv in D as [D _]. exact D.
  - left. destruct (piece_locked k ts); [discriminate|]. unfold piece_at, bind, get_mem in N. cbn [w_mem forget_past] in N. destruct (if k <? 0 then _ else _); [|discriminate]. injection N as <- <-. reflexivity.
  - left. destruct (torrent_rlocked ts); [discriminate|]. injection N as <- <-. reflexivity.
  - left. destruct (piece_locked k ts); [discriminate|]. pose proof (put_in_piece_mem k b d (forget_past w)) as [[_ M] _]. destruct (put_in_piece k b d (forget_past w)) as [w2 []]; cbn in N, M; try discriminate N; injection N as <- <-; exact M.
  - left. destruct (torrent_rlocked ts); [discriminate|]. injection N as N. destruct (put_finish sha1 cfg env k (forget_past w)) as [w2 r] eqn:R. apply put_finish_errors in R as [R1 _]. cbn [w_mem forget_past] in R1.
    assert (w2 = w1) as -> by (destruct r; cbn in N; congruence). exact R1.
  - left. destruct (piece_locked k ts); [discriminate|]. injection N as N. pose proof (get_block_mem k b len (forget_past w)) as M. destruct (get_block cfg env k b len (forget_past w)) as [w2 []]; cbn in N, M; try discriminate N; injection N as <- <-; now rewrite M.
  - left. destruct (nth_error _ id) as [[[|]|]|]; try discriminate N; injection N as <- <-; reflexivity.
  - left. destruct (nth_error _ id) as [[[|]|]|]; try discriminate N; injection N as <- <-; reflexivity.
Qed.
Lemma same_errs (m m' : mem) k q : map pc_err (t_pieces m') = map pc_err (t_pieces m) -> nth_error (t_pieces m) k = Some q ->
  exists q', nth_error (t_pieces m') k = Some q' /\ pc_err q' = pc_err q.
Proof.
  intros E H. assert (X : nth_error (map pc_err (t_pieces m)) k = Some (pc_err q)) by now apply map_nth_error. rewrite <- E, nth_error_map in X.
  destruct (nth_error (t_pieces m') k) as [q'|]; [|discriminate]. injection X as X. eauto.
Qed.
(** Piece k's future holds an error. *)
Definition broken (k : Z) (p : proc) : Prop :=
  match p with
  | Running w _ => 0 <= k /\ exists q e, nth_error (t_pieces (w_mem w)) (Z.to_nat k) = Some q /\ nth_error (t_futures (w_mem w)) (pc_err q) = Some (Some (Some e))
  | Dead _ _ => False
  end.
Lemma exec_later_step w ts w' ts' l es : exec (Running w ts) l = Some (Running w' ts', es) -> forall base, inv base (Running w ts) -> later (w_mem w) (w_mem w').
Proof using ok. intros E base I. destruct (exec_ok sha1 cfg env ok _ _ _ _ _ I E) as (_ & _ & _ & L). exact L. Qed.
Lemma broken_step base k p l p' es : inv base p -> broken k p -> exec p l = Some (p', es) -> match p' with Running _ _ => broken k p' | Dead _ _ => True end.
Proof using ok.
  intros I B E. destruct p' as [w' ts'|]; [|exact Logic.I]. destruct p as [w ts|]; [|destruct B]. destruct B as (K & q & e & Q & F).
  destruct l as [c|j| |j x| |]; try discriminate E.
  - injection E as <- <- <-. cbn. eauto.
  - pose proof (proj1 (proj2 (proj2 (exec_later_step _ _ _ _ _ _ E _ I))) _ _ F) as F'.
    pose proof E as E0. apply step_shape in E as (t & o & T & _ & _). destruct (step_errs _ _ _ _ _ _ _ _ I E0 T) as [M|(k' & p & q' & _ & _ & K' & P & U & Fu & Pi & Er)].
    + destruct (same_errs _ _ _ _ M Q) as (q' & Q' & X). split; [exact K|]. exists q', e. split; [exact Q'|]. now rewrite X.
    + split; [exact K|]. exists q, e. split; [|exact F']. rewrite Pi. rewrite list_set_nth_neq; [exact Q|]. intros X. rewrite X in P. assert (p = q) as -> by congruence. congruence.
  - cbn in E. destruct (nth_error ts j); [|discriminate]. destruct (next _ _ _ _ _ _); [|discriminate]. unfold crash_at, option_map in E. destruct (nth_error (w_past _) _); discriminate E.
Qed.
Lemma broken_runs base k ls : forall p p' es, inv base p -> broken k p -> execs p ls = Some (p', es) -> (forall l, In l ls -> same_run l) -> match p' with Running _ _ => broken k p' | Dead _ _ => True end.
Proof using ok.
  induction ls as [|l ls IH]; cbn [StorageSys.execs]; intros p p' es I B E S.
  - injection E as <- <-. destruct p; [exact B|exact Logic.I].
  - destruct (exec p l) as [[p1 e1]|] eqn:E1; [|discriminate]. destruct (execs p1 ls) as [[p2 e2]|] eqn:E2; [|discriminate]. injection E as <- <-.
    pose proof (broken_step _ _ _ _ _ _ I B E1) as B1. destruct p1 as [w1 ts1|f1 k1].
    + eapply IH; [exact (proj1 (exec_ok sha1 cfg env ok _ _ _ _ _ I E1))|exact B1|exact E2|]. intros l' H. apply S. now right.
    + destruct ls as [|l' ls]; [injection E2 as <- <-; exact Logic.I|]. cbn in E2. assert (same_run l') as SR by (apply S; right; now left). destruct l'; try destruct SR; discriminate E2.
Qed.
Lemma broken_means base k w ts : inv base (Running w ts) -> broken k (Running w ts) ->
  0 <= k < num_pieces (c_info cfg) /\ on_disk cfg (w_fs w) k = None /\ ~ member (t_bitfield (w_mem w)) k /\ piece_locked k ts = false /\ settled w k.
Proof using ok.
  intros I (K & q & e & Q & F). destruct I as (_ & (MI & MA & _) & _). pose proof MI as (ML & MP & _ & _ & _ & MB & _). destruct (MP _ _ Q) as (_ & _ & _ & _ & _ & P6 & P7 & P8 & P9). rewrite Z2Nat.id in * by lia.
  assert (pc_coalesced q = false) as C by (destruct (pc_coalesced q); [rewrite P7 in F by reflexivity; discriminate|reflexivity]).
  assert (piece_locked k ts = false) as PL. { destruct (piece_locked k ts); [|reflexivity]. rewrite P8 in F; [discriminate|exact C|reflexivity]. }
  split; [split; [exact K|]; apply nth_error_Some_lt in Q; rewrite ML in Q; unfold num_pieces, zlen; lia|]. split; [|split; [|split]].
  - specialize (MA _ _ Q). rewrite Z2Nat.id in MA by lia. destruct (on_disk cfg (w_fs w) k); [|reflexivity]. rewrite C in MA. destruct MA as [_ MA]. discriminate MA. discriminate.
  - intros M. apply MB in M as (_ & q' & Q' & C'). congruence.
  - exact PL.
  - exists q, (Some e). auto.
Qed.
(** ResetPiece of such a piece panics. *)
Lemma broken_reset k w ts : broken k (Running w ts) -> reset_piece k (forget_past w) = (forget_past w, Panic).
Proof.
  intros (K & q & e & Q & F). unfold reset_piece, bind at 1. assert (piece_at k (forget_past w) = (forget_past w, Ok q)) as ->.
  { unfold piece_at, bind, get_mem. cbn [w_mem forget_past]. destruct (k <? 0) eqn:X; [lia|]. now rewrite Q. }
  unfold bind at 1, deliver, bind, get_mem. cbn [w_mem forget_past]. rewrite F. reflexivity.
Qed.
(** A ChecksumError leaves its piece like that. *)
Lemma checksum_breaks base w ts j p' es k b d x g h : inv base (Running w ts) -> exec (Running w ts) (LStep j) = Some (p', es) ->
  In (Ret (CPut k b d) (RErr (EChecksum x g h))) es -> broken k p'.
Proof using ok.
  intros I E R. pose proof I as I0. apply step_shape in E as (t & o & T & N & E). destruct o as [w1 q|w1]; destruct E as [-> ->]; [|destruct R].
  destruct q; cbn in R; try contradiction. destruct R as [R|[]]. injection R as Ec ->. pose proof (proj2 (proj2 (proj2 I)) _ _ T) as TO. unfold next in N. unfold thread_ok in TO. rewrite Ec in *.
  destruct (th_pc t) eqn:Ep; try discriminate N; try contradiction TO; cbn [w_mem forget_past] in N.
  - destruct (check_block_size _ _ _ _) eqn:CB; [injection N as _ N; subst|destruct (t_coalesced _); discriminate N].
    unfold check_block_size in CB. repeat match type of CB with context [if ?c then _ else _] => destruct c; try discriminate CB end.
  - destruct (piece_locked k ts); [discriminate|]. destruct (put_in_piece k b d (forget_past w)) as [w2 [u|y|]] eqn:PP; try discriminate N. injection N as _ ->.
    exfalso. unfold put_in_piece, bind at 1 in PP. destruct (piece_at k (forget_past w)) as [w3 [p|y|]] eqn:PA; [|unfold piece_at, bind, get_mem in PA; destruct (if k <? 0 then _ else _); discriminate|discriminate].
    destruct (pc_coalesced p); [discriminate|]. destruct (match pc_blocks p with Some l => _ | None => _ end); [|discriminate]. destruct (if _ <? 0 then None else _) as [[|]|]; try discriminate.
  - destruct TO as [K TI]. destruct (torrent_rlocked ts); [discriminate|]. injection N as N. destruct (put_finish sha1 cfg env k (forget_past w)) as [w2 r] eqn:PF.
    destruct r as [u|y|]; try discriminate N. cbn in N. injection N as -> ->. destruct I as (HJ & HM & _). cbn [disk_of] in HJ.
    assert (P0 : PI sha1 cfg (fun k => piece_locked k ts) base (forget_past w)) by (split; [exact HJ|]; split; [constructor|exact HM]).
    destruct HM as ((ML & _) & _). assert (exists p, nth_error (t_pieces (w_mem w)) (Z.to_nat k) = Some p) as [p P].
    { destruct (nth_error (t_pieces (w_mem w)) (Z.to_nat k)) eqn:X; [eauto|]. apply nth_error_None in X. rewrite ML in X. unfold num_pieces, zlen in K. lia. }
    assert (piece_locked k ts = true) as PL by (apply piece_locked_iff; exists j, t; rewrite Ec; auto).
    rewrite <- (Z2Nat.id k) in PF by lia. assert (piece_locked (Z.of_nat (Z.to_nat k)) ts = true) as PL' by (rewrite Z2Nat.id by lia; exact PL). pose proof (put_finish_spec sha1 cfg env ok _ base _ p _ _ _ P0 P PL' PF) as (_ & _ & _ & _ & _ & NF & _ & FU).
    destruct (pc_blocks p) as [l|] eqn:PB; [|destruct NF as [_ NF]; [intros (l & X & _); congruence|discriminate NF]].
    destruct (Z.eq_dec (pc_complete p) (zlen l)) as [FL|FL]; [|destruct NF as [_ NF]; [intros (l' & X & Y); congruence|discriminate NF]].
    destruct (FU l eq_refl FL) as (data & _ & _ & HH). destruct (bytes_eqb _ _) in HH; [discriminate HH|]. destruct HH as (e & [= <-] & _ & PI' & FE). cbn [w_mem forget_past] in PI'.
    split; [lia|]. exists p, (EChecksum x g h). rewrite PI'. auto.
Qed.
(** Who waits for a piece waits for its future, or for one that ended in a reset. *)
Definition waiting_ok (p : proc) : Prop :=
  match p with
  | Running w ts => forall j t id k, nth_error ts j = Some t -> th_pc t = Waiting id -> th_call t = CWait k ->
      exists q, nth_error (t_pieces (w_mem w)) (Z.to_nat k) = Some q /\ 0 <= k /\ (pc_err q = id \/ nth_error (t_futures (w_mem w)) id = Some (Some (Some EReset)))
  | Dead _ _ => True
  end.
Lemma waiting_step base p l p' es : inv base p -> waiting_ok p -> exec p l = Some (p', es) -> waiting_ok p'.
Proof using ok.
  intros I W E. destruct p' as [w' ts'|]; [|exact Logic.I]. destruct p as [w ts|f tick].
  2:{ destruct l; try discriminate E; unfold StorageSys.exec in E.
      - destruct (load cfg env (booted cfg f tick)) as [w r] eqn:L. destruct r; try discriminate E. injection E as <- <- <-. intros [|j] t id k T; discriminate T.
      - unfold crash_at, option_map in E. destruct (nth_error (w_past _) _); discriminate E. }
  destruct l as [c|j| |j x| |]; try discriminate E.
  - injection E as <- <- <-. intros j t id k T P. destruct (Nat.lt_ge_cases j (List.length ts)) as [Lt|Ge]; [rewrite nth_error_app1 in T by exact Lt; eapply W; eassumption|].
    rewrite nth_error_app2 in T by exact Ge. destruct (j - List.length ts)%nat as [|[|]]; cbn in T; try discriminate T. injection T as <-. discriminate P.
  - pose proof E as E0. apply step_shape in E as (t & o & T & N & E). destruct o as [w1 q|w1]; [|destruct E; discriminate]. destruct E as [E _]. injection E as -> ->.
    pose proof (exec_later_step _ _ _ _ _ _ E0 _ I) as LT.
    assert (OLD : forall k id p, nth_error (t_pieces (w_mem w)) (Z.to_nat k) = Some p -> 0 <= k -> (pc_err p = id \/ nth_error (t_futures (w_mem w)) id = Some (Some (Some EReset))) ->
      exists p', nth_error (t_pieces (w_mem w1)) (Z.to_nat k) = Some p' /\ 0 <= k /\ (pc_err p' = id \/ nth_error (t_futures (w_mem w1)) id = Some (Some (Some EReset)))).
    { intros k id p P K C. destruct (step_errs _ _ _ _ _ _ _ _ I E0 T) as [M|(k' & p1 & q' & _ & _ & K' & P1 & U & Fu & Pi & Er)].
      - destruct (same_errs _ _ _ _ M P) as (p' & P' & X). exists p'. split; [exact P'|]. split; [exact K|]. destruct C as [C|C]; [left; congruence|right; now apply LT].
      - destruct (Nat.eq_dec (Z.to_nat k') (Z.to_nat k)) as [Q|Q].
        + exists q'. rewrite Pi, <- Q. split; [eapply list_set_same_len; exact P1|]. split; [exact K|]. right. destruct C as [C|C]; [|now apply LT]. rewrite Fu. rewrite <- Q in P. assert (p1 = p) as -> by congruence. rewrite <- C.
          rewrite nth_error_app1 by (rewrite list_set_length; apply nth_error_Some; congruence). eapply list_set_same_len; exact U.
        + exists p. rewrite Pi, list_set_nth_neq by congruence. split; [exact P|]. split; [exact K|]. destruct C as [C|C]; [now left|right; now apply LT]. }
    intros j' t' id k T' P' C'. apply nth_error_list_set in T' as [(-> & -> & _)|[_ T']].
    + cbn in P', C'. subst q. pose proof (proj2 (proj2 (proj2 I)) _ _ T) as TO. unfold next in N. unfold thread_ok in TO. rewrite C' in N, TO. cbn [w_mem forget_past] in N.
      destruct (th_pc t) eqn:Ep; try discriminate N; try contradiction TO.
      * destruct (piece_locked k ts); [discriminate|]. destruct (piece_at k (forget_past w)) as [w2 [p|e|]] eqn:PA; try discriminate N. apply piece_at_inv in PA as (-> & K & PA). cbn in PA. injection N as N1 N2. subst id.
        apply (OLD k _ p PA K). now left.
      * destruct (nth_error _ fut) as [[[|]|]|]; discriminate N.
    + destruct (W _ _ _ _ T' P' C') as (p & P & K & C). exact (OLD _ _ _ P K C).
  - cbn in E. destruct (nth_error ts j); [|discriminate]. destruct (next _ _ _ _ _ _); [|discriminate]. unfold crash_at, option_map in E. destruct (nth_error (w_past _) _); discriminate E.
Qed.
Lemma waiting_run f tick ls p es : untouched cfg f -> execs (Dead f tick) ls = Some (p, es) -> waiting_ok p.
Proof using ok.
  intros U. assert (forall ls p0, inv f p0 -> waiting_ok p0 -> forall p es, execs p0 ls = Some (p, es) -> waiting_ok p) as G.
  { clear ls p es. induction ls as [|l ls IH]; intros p0 I0 F0 p es E; cbn in E; [injection E as <- <-; exact F0|].
    destruct (exec p0 l) as [[p1 es1]|] eqn:E1; [|discriminate]. destruct (execs p1 ls) as [[p2 es2]|] eqn:E2; [|discriminate]. injection E as <- <-.
    eapply (IH p1); [exact (proj1 (exec_ok sha1 cfg env ok _ _ _ _ _ I0 E1))|eapply waiting_step; eassumption|exact E2]. }
  intros E. apply (G ls (Dead f tick) (inv_start sha1 cfg env ok f tick U) Logic.I p es E).
Qed.
(** Waiting for a piece gives an error only if the piece was reset or a PutBlock of it
    returned that error. *)
Lemma wait_error p es j p' es' k e base : inv base p -> waiting_ok p -> failed_at (Z.to_nat k) p es -> exec p (LStep j) = Some (p', es') -> In (Ret (CWait k) (RErr e)) es' ->
  e = EReset \/ exists b d, In (Ret (CPut k b d) (RErr e)) es.
Proof using ok.
  intros I W F E R. destruct p as [w ts|]; [|discriminate E]. apply step_shape in E as (t & o & T & N & E). destruct o as [w1 q|w1]; destruct E as [-> ->]; [|destruct R].
  destruct q; cbn in R; try contradiction. destruct R as [R|[]]. injection R as Ec ->. pose proof (proj2 (proj2 (proj2 I)) _ _ T) as TO. unfold next in N. unfold thread_ok in TO. rewrite Ec in *.
  destruct (th_pc t) eqn:Ep; try discriminate N; try contradiction TO; cbn [w_mem forget_past] in N.
  - destruct (piece_locked k ts); [discriminate|]. destruct (piece_at k (forget_past w)) as [w2 [p|x|]]; discriminate N.
  - destruct (nth_error (t_futures (w_mem w)) fut) as [[[x|]|]|] eqn:FU; try discriminate N. injection N as _ ->.
    destruct (W _ _ _ _ T Ep Ec) as (p & P & K & [X|X]); [|left; congruence]. right. rewrite <- X in FU. destruct (F _ _ P FU) as (_ & b & d & IN). rewrite Z2Nat.id in IN by lia. eauto.
Qed.
(** When a process has just started no piece has failed. *)
Definition fresh_ok (p : proc) : Prop := match p with Running w [] => forall id e, nth_error (t_futures (w_mem w)) id <> Some (Some (Some e)) | _ => True end.
Lemma fresh_step p l p' es : exec p l = Some (p', es) -> fresh_ok p'.
Proof.
  intros E. destruct p' as [w' ts'|]; [|exact Logic.I]. destruct p as [w ts|f tick].
  - destruct l as [c|j| |j x| |]; try discriminate E.
    + injection E as <- <- <-. destruct ts; exact Logic.I.
    + apply step_shape in E as (t & o & T & N & E). destruct o as [w1 q|w1]; [|destruct E; discriminate]. destruct E as [E _]. injection E as -> ->. destruct ts as [|t0 ts]; [destruct j; discriminate T|]. destruct j; exact Logic.I.
    + cbn in E. destruct (nth_error ts j); [|discriminate]. destruct (next _ _ _ _ _ _); [|discriminate]. unfold crash_at, option_map in E. destruct (nth_error (w_past _) _); discriminate E.
  - destruct l; try discriminate E; unfold StorageSys.exec in E.
    + destruct (load cfg env (booted cfg f tick)) as [w r] eqn:L. pose proof (load_calm (booted cfg f tick)) as C. rewrite L in C. cbn [fst] in C. destruct r; try discriminate E. injection E as <- <- <-.
      intros id e X. apply C in X. revert X. apply new_mem_futures.
    + unfold crash_at, option_map in E. destruct (nth_error (w_past _) _); discriminate E.
Qed.
Lemma fresh_run f tick ls w es : execs (Dead f tick) ls = Some (Running w [], es) -> failed_ok (Running w []) [].
Proof.
  intros E. assert (fresh_ok (Running w [])) as F.
  { remember (Dead f tick) as p0 eqn:P0. assert (fresh_ok p0) as F0 by now subst. clear P0. revert p0 es F0 E. induction ls as [|l ls IH]; cbn [StorageSys.execs]; intros p0 es F0 E; [injection E as -> _; exact F0|].
    destruct (exec p0 l) as [[p1 e1]|] eqn:E1; [|discriminate]. destruct (execs p1 ls) as [[p2 e2]|] eqn:E2; [|discriminate]. injection E as -> <-. eapply IH; [eapply fresh_step; exact E1|exact E2]. }
  intros k q e Q X. now apply F in X.
Qed.
(** ... nor has a piece that was just reset. *)
Lemma reset_fresh base w ts j w' ts' k r : inv base (Running w ts) -> exec (Running w ts) (LStep j) = Some (Running w' ts', [Ret (CReset k) r]) ->
  0 <= k /\ failed_at (Z.to_nat k) (Running w' ts') [].
Proof using ok.
  intros I E. destruct (exec_ok sha1 cfg env ok _ _ _ _ _ I E) as (_ & _ & EV & _). apply Forall_inv in EV. cbn in EV. subst r.
  apply step_shape in E as (t & o & T & N & E). destruct o as [w1 q|w1]; [|destruct E; discriminate]. destruct E as [E EV]. injection E as -> ->.
  destruct q; try discriminate EV. injection EV as Ec <-. symmetry in Ec. pose proof (proj2 (proj2 (proj2 I)) _ _ T) as TO. unfold next in N. unfold thread_ok in TO. rewrite Ec in *.
  destruct (th_pc t) eqn:Ep; try discriminate N; try contradiction TO; cbn [w_mem forget_past] in N.
  destruct (piece_locked k ts); [discriminate|]. injection N as N. destruct (reset_piece k (forget_past w)) as [w2 r] eqn:R. apply reset_piece_mem in R as [_ R]. cbn [w_mem forget_past] in R.
  destruct r; try discriminate N. cbn in N. injection N as ->. destruct R as (p & K & P & Fu & q1 & Pi & Er). split; [exact K|]. intros q e Q F. exfalso. rewrite Pi in Q. rewrite Fu in F.
  apply nth_error_list_set in Q as [(_ & -> & _)|[X _]]; [|congruence]. rewrite Er, nth_error_app2 in F by (rewrite list_set_length; lia). rewrite list_set_length, Nat.sub_diag in F. discriminate F.
Qed.
End Sys.
