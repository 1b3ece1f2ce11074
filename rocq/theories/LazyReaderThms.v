(** The theorems about the copying of the piece files. *)
From Verif Require Import GoBase Fs LazyReader LazyReaderSpec LazyReaderProofs Metainfo Storage.

Lemma single_copies disk env temp pieces s w e s' : single disk env temp pieces s = (w, e, s') ->
  e <> Some RStuck /\ (exists rest, fst (contents disk pieces) = w ++ rest) /\
  (e = None -> contents disk pieces = (w, true)) /\ (works env -> snd (contents disk pieces) = true -> e = None).
Proof.
  unfold single. destruct (copy_all disk env (map lazy pieces) (note_fd (TOpen temp) s)) as [[w1 e1] s1] eqn:E1.
  intros E. injection E as <- <- <-. destruct (copy_all_spec _ _ _ _ _ _ _ E1) as (ev & _ & P & K). split; [|split; [exact P|]].
  - intros ->. exact K.
  - destruct e1 as [[| |]|]; [destruct K | | destruct K |].
    + split; [discriminate|]. intros W X. destruct K as (_ & K). rewrite (K W) in X. discriminate X.
    + split; [intros _; exact (proj1 K) | reflexivity].
Qed.
Lemma multi_copies disk env files pieces s ws e s' : multi disk env files pieces s = (ws, e, s') ->
  e <> Some RStuck /\ (exists more, map fst files = map fst ws ++ more) /\ (exists rest, fst (contents disk pieces) = concat (map snd ws) ++ rest) /\
  (e = None -> map fst ws = map fst files /\ map (fun f => zlen (snd f)) ws = map (fun f => Z.max 0 (snd f)) files) /\
  (works env -> total files <= zlen (fst (contents disk pieces)) -> e = None).
Proof.
  unfold multi. intros E. destruct (copy_each_spec disk env files [] pieces None _ _ _ _ _ eq_refl E) as (ev & done & todo & b & _ & _ & _ & M & R & _ & K).
  split; [intros ->; exact K|]. split; [exact M|]. split; [exact R|]. split.
  - intros ->. exact (conj (proj1 K) (proj1 (proj2 K))).
  - intros W X. destruct e as [[| |]|]; [| |destruct K | reflexivity]; specialize (K W); cbn in K; lia.
Qed.

Lemma single_one disk env temp pieces s w e s' pre post : single disk env temp pieces s = (w, e, s') ->
  r_log s' = r_log s ++ pre ++ post -> 0 <= opened_pieces pre <= 1.
Proof.
  unfold single. destruct (copy_all disk env (map lazy pieces) (note_fd (TOpen temp) s)) as [[w1 e1] s1] eqn:E1.
  intros E L. injection E as _ _ <-. destruct (copy_all_spec _ _ _ _ _ _ _ E1) as (ev & G & _ & K).
  cbn [note_fd r_log] in L, G. rewrite G, <- !app_assoc in L. apply app_inv_head in L.
  assert (Q : exists done tail, ev = one_by_one done ++ tail /\ (tail = [] \/ exists p, tail = [FOpen p])).
  { destruct e1 as [[| |]|]; [destruct K | exact (proj1 K) | destruct K |]. exists pieces, []. rewrite app_nil_r. split; [exact (proj2 K) | left; reflexivity]. }
  destruct Q as (done & tail & -> & T). assert (X : exists q, one_by_one done ++ tail = piece_events pre ++ q).
  { exists (piece_events post). rewrite <- piece_events_app, <- L. change ([TOpen temp] ++ (one_by_one done ++ tail) ++ [TClose temp])
      with (TOpen temp :: (one_by_one done ++ tail) ++ [TClose temp]). change (one_by_one done ++ tail = piece_events ((one_by_one done ++ tail) ++ [TClose temp])).
    rewrite !piece_events_app. cbn. rewrite app_nil_r. f_equal.
    - pose proof (seen_pieces None done []) as S0. unfold seen in S0. rewrite app_nil_r in S0. symmetry. exact S0.
    - destruct T as [-> | (p & ->)]; reflexivity. }
  destruct X as (q & X). rewrite <- opened_filter. exact (one_by_one_le _ _ _ _ X T).
Qed.
Lemma multi_one disk env files pieces s ws e s' pre post : multi disk env files pieces s = (ws, e, s') ->
  r_log s' = r_log s ++ pre ++ post -> 0 <= opened_pieces pre <= 1.
Proof.
  unfold multi. intros E L. destruct (copy_each_spec disk env files [] pieces None _ _ _ _ _ eq_refl E) as (ev & done & todo & b & G & V & _).
  rewrite G in L. apply app_inv_head in L. cbn in V. rewrite L, piece_events_app in V. rewrite <- opened_filter.
  unfold seen in V. symmetry in V. apply (one_by_one_le _ _ _ _ V). destruct b, todo; eauto.
Qed.

Lemma single_closed disk env temp pieces s w e s' : single disk env temp pieces s = (w, e, s') ->
  exists ev, r_log s' = r_log s ++ ev /\ opened_targets ev = 0 /\ (e = None -> ev = TOpen temp :: one_by_one pieces ++ [TClose temp]).
Proof.
  unfold single. destruct (copy_all disk env (map lazy pieces) (note_fd (TOpen temp) s)) as [[w1 e1] s1] eqn:E1.
  intros E. injection E as <- <- <-. destruct (copy_all_spec _ _ _ _ _ _ _ E1) as (ev & G & _ & K).
  cbn [note_fd r_log] in *. exists ([TOpen temp] ++ ev ++ [TClose temp]). rewrite G, <- !app_assoc. split; [reflexivity|]. split.
  - assert (Q : exists done tail, ev = one_by_one done ++ tail /\ (tail = [] \/ exists p, tail = [FOpen p])).
    { destruct e1 as [[| |]|]; [destruct K | exact (proj1 K) | destruct K |]. exists pieces, []. rewrite app_nil_r. split; [exact (proj2 K) | left; reflexivity]. }
    destruct Q as (done & tail & -> & T). rewrite !targets_app.
    assert (Y : opened_targets (one_by_one done) = 0).
    { apply no_targets. pose proof (seen_pieces None done []) as S0. unfold seen in S0. rewrite app_nil_r in S0. exact S0. }
    rewrite Y. destruct T as [-> | (p & ->)]; reflexivity.
  - intros ->. rewrite (proj2 K). reflexivity.
Qed.
Lemma multi_targets disk env files pieces s ws e s' : multi disk env files pieces s = (ws, e, s') ->
  exists ev, r_log s' = r_log s ++ ev /\ 0 <= opened_targets ev <= 1 /\ (e = None -> opened_targets ev = 0).
Proof.
  unfold multi. intros E. destruct (copy_each_spec disk env files [] pieces None _ _ _ _ _ eq_refl E) as (ev & done & todo & b & G & _ & _ & _ & _ & T & K).
  exists ev. split; [exact G|]. split; [exact T|]. intros ->. tauto.
Qed.
Lemma multi_left disk env files pieces s ws s' : multi disk env files pieces s = (ws, None, s') -> 0 < total files ->
  exists ev, r_log s' = r_log s ++ ev /\ opened_pieces ev = 1.
Proof.
  unfold multi. intros E P. destruct (copy_each_spec disk env files [] pieces None _ _ _ _ _ eq_refl E) as (ev & done & todo & b & G & V & Q & _ & R & _ & K1 & K2 & _ & K).
  exists ev. split; [exact G|]. cbn in V. rewrite <- opened_filter, V. unfold seen. rewrite opened_app, opened_one_by_one.
  destruct (K (or_introl P)) as (B & N). destruct b as [b|]; [|contradiction]. destruct todo as [|p todo]; [contradiction | reflexivity].
Qed.

(** What the storage model takes the readers to deliver is what is on disk. *)
Lemma read_pieces_contents cfg f ps : read_pieces cfg f ps = contents f (map (fun p => piece_path cfg (pc_index p)) ps).
Proof.
  induction ps as [|p ps IH]; [reflexivity|]. cbn [read_pieces map contents]. destruct (lookup (piece_path cfg (pc_index p)) f) as [[|b]|]; try reflexivity.
  rewrite IH. destruct (contents f (map (fun p => piece_path cfg (pc_index p)) ps)); reflexivity.
Qed.
