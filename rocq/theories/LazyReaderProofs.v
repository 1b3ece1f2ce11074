(** Proofs about the copying of the piece files. *)
From Verif Require Import GoBase Fs LazyReader LazyReaderSpec.

Lemma filter_app_ {A} (f : A -> bool) l m : filter f (l ++ m) = filter f l ++ filter f m.
Proof. apply filter_app. Qed.
Lemma zlen_app_ {A} (l m : list A) : zlen (l ++ m) = zlen l + zlen m.
Proof. unfold zlen. rewrite app_length. lia. Qed.

(** At most one piece file is open at any moment when they are opened one by one. *)
Lemma opened_app l m : opened_pieces (l ++ m) = opened_pieces l + opened_pieces m.
Proof. unfold opened_pieces. rewrite !filter_app, !zlen_app_. lia. Qed.
Lemma targets_app l m : opened_targets (l ++ m) = opened_targets l + opened_targets m.
Proof. unfold opened_targets. rewrite !filter_app, !zlen_app_. lia. Qed.
Lemma opened_filter l : opened_pieces (piece_events l) = opened_pieces l.
Proof.
  induction l as [|e l IH]; [reflexivity|]. change (e :: l) with ([e] ++ l). rewrite opened_app, <- IH.
  unfold piece_events. rewrite filter_app. fold (piece_events l). rewrite opened_app. f_equal. destruct e; reflexivity.
Qed.
Lemma one_by_one_le ps : forall tail pre post, one_by_one ps ++ tail = pre ++ post -> (tail = [] \/ exists p, tail = [FOpen p]) ->
  0 <= opened_pieces pre <= 1.
Proof.
  induction ps as [|p ps IH]; intros tail pre post E T.
  - cbn in E. destruct pre as [|e pre]; [cbn; lia|]. destruct T as [T | (p & T)]; rewrite T in E; [discriminate|].
    injection E as <- E. destruct pre; [cbn; lia | discriminate].
  - destruct pre as [|e1 pre]; [cbn; lia|]. cbn in E. injection E as <- E.
    destruct pre as [|e2 pre]; [cbn; lia|]. injection E as <- E.
    specialize (IH _ _ _ E T). change (FOpen p :: FClose p :: pre) with ([FOpen p; FClose p] ++ pre). rewrite opened_app. cbn. lia.
Qed.
Lemma one_by_one_app ps qs : one_by_one (ps ++ qs) = one_by_one ps ++ one_by_one qs.
Proof. apply flat_map_app. Qed.
Lemma opened_one_by_one ps : opened_pieces (one_by_one ps) = 0.
Proof.
  induction ps as [|p ps IH]; [reflexivity|]. change (one_by_one (p :: ps)) with ([FOpen p; FClose p] ++ one_by_one ps).
  rewrite opened_app, IH. reflexivity.
Qed.
Lemma events_prefix l pre post ev : piece_events l = ev -> l = pre ++ post -> exists q, ev = piece_events pre ++ q.
Proof. intros <- ->. exists (piece_events post). apply filter_app. Qed.

Section Proofs.
Variable disk : fs.
Variable env : nat -> rchoice.
Notation chk := (check_open disk env).

Definition fresh (p : path) (r : lfr) : Prop := l_path r = p /\ l_file r = None /\ l_read r = 0.
Definition opened (p : path) (b : bytes) (r : lfr) : Prop :=
  l_path r = p /\ l_file r = Some {| h_rest := Some b; h_closed := false |} /\ l_read r + zlen b = l_size r.
Lemma fresh_lazy p : fresh p (lazy p).
Proof. repeat split. Qed.

(** check_open of a reader that has not been opened. *)
Lemma check_open_fresh p r s e r' s' : fresh p r -> chk r s = (e, r', s') ->
  match e with
  | None => r_log s' = r_log s ++ [FOpen p] /\
            ((exists b, lookup p disk = Some (NFile b) /\ opened p b r' /\ l_read r' = 0) \/
             (lookup p disk = Some NDir /\ exists n, r' = {| l_path := p; l_file := Some {| h_rest := None; h_closed := false |}; l_read := 0; l_size := n |}))
  | Some e => e = RErr /\ r_log s' = r_log s /\ l_file r' = None /\ (works env -> lookup p disk = None)
  end.
Proof.
  intros (P & F & R) E. unfold check_open in E. rewrite F in E. unfold ask in E. cbn [r_tick] in E.
  unfold stat_size in E. rewrite P in E. destruct (rc_fail (env (r_tick s))) eqn:C1.
  - injection E as <- <- <-. repeat split; [exact F|]. intros W. rewrite (W _) in C1. discriminate C1.
  - destruct (lookup p disk) as [[|b]|] eqn:L.
    + unfold open_read in E. rewrite L in E. destruct (rc_fail (env (S (r_tick s)))) eqn:C2.
      * injection E as <- <- <-. repeat split. intros W. rewrite (W _) in C2. discriminate C2.
      * injection E as <- <- <-. split; [reflexivity|]. right. split; [reflexivity|]. rewrite R. eauto.
    + unfold open_read in E. rewrite L in E. destruct (rc_fail (env (S (r_tick s)))) eqn:C2.
      * injection E as <- <- <-. repeat split. intros W. rewrite (W _) in C2. discriminate C2.
      * injection E as <- <- <-. split; [reflexivity|]. left. exists b. cbn. rewrite R. repeat split.
    + injection E as <- <- <-. repeat split; [exact F].
Qed.
Lemma check_open_opened p b r s : opened p b r -> chk r s = (None, r, s).
Proof. intros (P & F & R). unfold check_open. rewrite F. reflexivity. Qed.

(** A read from an open file. *)
Lemma file_read_open b n s d e h s' : (0 < n)%nat -> file_read env {| h_rest := Some b; h_closed := false |} n s = (d, e, h, s') ->
  r_log s' = r_log s /\ h_closed h = false /\
  match e with
  | None => d <> [] /\ (List.length d <= n)%nat /\ exists b', b = d ++ b' /\ h = {| h_rest := Some b'; h_closed := false |}
  | Some REof => d = [] /\ b = [] /\ h = {| h_rest := Some []; h_closed := false |}
  | Some RErr => d = [] /\ ~ works env
  | Some RStuck => False
  end.
Proof.
  intros N E. unfold file_read in E. cbn [h_closed h_rest] in E. destruct n as [|n]; [lia|]. unfold ask in E.
  destruct (rc_fail (env (r_tick s))) eqn:C.
  - injection E as <- <- <- <-. repeat split. intros W. rewrite (W _) in C. discriminate C.
  - destruct b as [|x b].
    + injection E as <- <- <- <-. repeat split.
    + set (k := S (rc_more (env (r_tick s)) mod Nat.min (S n) (List.length (x :: b)))) in E.
      assert (K : (1 <= k <= Nat.min (S n) (List.length (x :: b)))%nat).
      { subst k. pose proof (Nat.mod_upper_bound (rc_more (env (r_tick s))) (Nat.min (S n) (List.length (x :: b)))) as U.
        cbn [List.length] in *. lia. }
      clearbody k. injection E as <- <- <- <-. cbn [r_log h_closed]. repeat split.
      * destruct k; [lia|]. discriminate.
      * rewrite firstn_length. lia.
      * exists (skipn k (x :: b)). rewrite firstn_skipn. split; reflexivity.
Qed.
Lemma file_read_dir n s d e h s' : (0 < n)%nat -> file_read env {| h_rest := None; h_closed := false |} n s = (d, e, h, s') ->
  r_log s' = r_log s /\ d = [] /\ e = Some RErr.
Proof.
  intros N E. unfold file_read in E. cbn [h_closed h_rest] in E. destruct n as [|n]; [lia|]. unfold ask in E.
  destruct (rc_fail (env (r_tick s))); injection E as <- <- <- <-; repeat split.
Qed.

(** A read from a lazy reader. *)
Definition read_result (p : path) (n : nat) (before : list fdevent) (b : option bytes) (ev : list fdevent) (d : bytes) (e : option rerr) (r' : lfr) : Prop :=
  match e with
  | None => d <> [] /\ (List.length d <= n)%nat /\ ev = before /\ exists b', b = Some (d ++ b') /\ opened p b' r'
  | Some REof => d = [] /\ b = Some [] /\ ev = before ++ [FClose p]
  | Some RErr => d = [] /\ (ev = [] \/ ev = before) /\ (works env -> b = None)
  | Some RStuck => False
  end.
Definition file_at (p : path) : option bytes := match lookup p disk with Some (NFile b) => Some b | _ => None end.

Lemma read_opened p b r n s d e r' s' : (0 < n)%nat -> opened p b r -> lfr_read disk env r n s = (d, e, r', s') ->
  exists ev, r_log s' = r_log s ++ ev /\ read_result p n [] (Some b) ev d e r'.
Proof.
  intros N O E. unfold lfr_read in E. rewrite (check_open_opened p b r s O) in E. destruct O as (P & F & R). rewrite F in E.
  destruct (file_read env {| h_rest := Some b; h_closed := false |} n s) as [[[d1 e1] h1] s1] eqn:E1.
  destruct (file_read_open _ _ _ _ _ _ _ N E1) as (G & H & K). destruct e1 as [[| |]|].
  - destruct K as (-> & -> & ->). unfold check_close, has_read in E. cbn [l_read l_size l_file h_closed l_path] in E.
    replace (l_read r + zlen [] =? l_size r) with true in E by (symmetry; apply Z.eqb_eq; exact R).
    injection E as <- <- <- <-. exists [FClose p]. cbn. rewrite G, P. repeat split.
  - injection E as <- <- <- <-. exists []. rewrite app_nil_r. split; [exact G|]. destruct K as (-> & K). repeat split; [left; reflexivity|].
    intros W. contradiction.
  - destruct K.
  - injection E as <- <- <- <-. exists []. rewrite app_nil_r. split; [exact G|]. destruct K as (K1 & K2 & b' & -> & ->).
    repeat split; auto. exists b'. repeat split; cbn; auto. rewrite zlen_app_ in R. lia.
Qed.
Lemma read_fresh p r n s d e r' s' : (0 < n)%nat -> fresh p r -> lfr_read disk env r n s = (d, e, r', s') ->
  exists ev, r_log s' = r_log s ++ ev /\ read_result p n [FOpen p] (file_at p) ev d e r'.
Proof.
  intros N O E. unfold lfr_read in E. destruct (chk r s) as [[e0 r0] s0] eqn:E0.
  pose proof (check_open_fresh _ _ _ _ _ _ O E0) as C. destruct e0 as [e0|].
  - destruct C as (-> & C1 & C2 & C3). injection E as <- <- <- <-. exists []. rewrite app_nil_r. split; [exact C1|].
    repeat split; [left; reflexivity|]. intros W. unfold file_at. rewrite (C3 W). reflexivity.
  - destruct C as (C1 & [(b & L & O0 & R0) | (L & z & ->)]).
    + assert (X : lfr_read disk env r0 n s0 = (d, e, r', s')).
      { unfold lfr_read. rewrite (check_open_opened p b r0 s0 O0). exact E. }
      destruct (read_opened _ _ _ _ _ _ _ _ _ N O0 X) as (ev & G & K). exists ([FOpen p] ++ ev).
      rewrite G, C1, app_assoc. split; [reflexivity|]. unfold file_at. rewrite L. unfold read_result in *.
      destruct e as [[| |]|]; [| |exact K|].
      * destruct K as (-> & K1 & ->). repeat split; assumption.
      * destruct K as (-> & K1 & K2). repeat split; [|exact K2]. right. destruct K1; subst ev; reflexivity.
      * destruct K as (K1 & K2 & -> & K3). repeat split; auto.
    + cbn [l_file] in E. destruct (file_read env {| h_rest := None; h_closed := false |} n s0) as [[[d1 e1] h1] s1] eqn:E1.
      destruct (file_read_dir _ _ _ _ _ _ N E1) as (G & -> & ->). injection E as <- <- <- <-.
      exists [FOpen p]. rewrite G. split; [exact C1|]. repeat split; [right; reflexivity|]. intros _. unfold file_at. rewrite L. reflexivity.
Qed.

(** The readers of a MultiReader: those before are done with, the first may be open. *)
Definition at_readers (b : option bytes) (todo : list path) (rs : list lfr) : Prop :=
  match b with
  | None => rs = map lazy todo
  | Some b => exists p todo' r, todo = p :: todo' /\ rs = r :: map lazy todo' /\ opened p b r
  end.
(** What they will still deliver, and the events there have been. *)
Definition to_come (b : option bytes) (todo : list path) : bytes * bool :=
  match b with
  | None => contents disk todo
  | Some b => (b ++ fst (contents disk (tl todo)), snd (contents disk (tl todo)))
  end.
Definition seen (b : option bytes) (done todo : list path) : list fdevent :=
  one_by_one done ++ match b, todo with Some _, p :: _ => [FOpen p] | _, _ => [] end.

Lemma multi_read_spec todo : forall done b rs n s d e rs' s', (0 < n)%nat -> at_readers b todo rs ->
  multi_read disk env rs n s = (d, e, rs', s') ->
  exists ev done' todo' b', r_log s' = r_log s ++ ev /\ seen b done todo ++ ev = seen b' done' todo' /\ done' ++ todo' = done ++ todo /\
    match e with
    | None => d <> [] /\ (List.length d <= n)%nat /\ at_readers b' todo' rs' /\ b' <> None /\
              fst (to_come b todo) = d ++ fst (to_come b' todo') /\ snd (to_come b todo) = snd (to_come b' todo')
    | Some REof => d = [] /\ to_come b todo = ([], true) /\ todo' = [] /\ b' = None /\ rs' = []
    | Some RErr => d = [] /\ (works env -> to_come b todo = ([], false))
    | Some RStuck => False
    end.
Proof.
  induction todo as [|p todo IH]; intros done b rs n s d e rs' s' N A E.
  { destruct b as [b|]; [destruct A as (? & ? & ? & A & _); discriminate A|]. cbn in A. subst rs. cbn in E. injection E as <- <- <- <-.
    exists [], done, [], None. rewrite !app_nil_r. repeat split. }
  assert (X : exists r, rs = r :: map lazy todo /\ match b with None => fresh p r | Some b => opened p b r end).
  { destruct b as [b|]; cbn in A; [destruct A as (p0 & todo0 & r & A & B & C); injection A as <- <-; eauto|].
    exists (lazy p). split; [exact A | apply fresh_lazy]. }
  destruct X as (r & -> & X). clear A. cbn [multi_read] in E. destruct (lfr_read disk env r n s) as [[[d1 e1] r1] s1] eqn:E1.
  assert (Y : exists ev, r_log s1 = r_log s ++ ev /\
    read_result p n (match b with Some _ => [] | None => [FOpen p] end) (match b with Some b => Some b | None => file_at p end) ev d1 e1 r1).
  { destruct b as [b|]; [eapply read_opened | eapply read_fresh]; eauto. }
  destruct Y as (ev & G & K). clear X. unfold read_result in K. destruct e1 as [[| |]|].
  - destruct K as (-> & K1 & ->). destruct (IH (done ++ [p]) None _ _ _ _ _ _ _ N eq_refl E) as (ev & done' & todo' & b' & I1 & I2 & I3 & I4).
    exists ((match b with Some _ => [] | None => [FOpen p] end ++ [FClose p]) ++ ev), done', todo', b'.
    assert (S1 : seen b done (p :: todo) ++ (match b with Some _ => [] | None => [FOpen p] end ++ [FClose p]) = seen None (done ++ [p]) todo).
    { unfold seen. rewrite one_by_one_app, app_nil_r, <- app_assoc. destruct b; reflexivity. }
    assert (T1 : to_come b (p :: todo) = to_come None todo).
    { destruct b as [b|]; cbn.
      - injection K1 as ->. cbn. destruct (contents disk todo); reflexivity.
      - unfold file_at in K1. destruct (lookup p disk) as [[|b]|]; try discriminate K1. injection K1 as ->. cbn.
        destruct (contents disk todo); reflexivity. }
    split; [rewrite I1, G, <- !app_assoc; reflexivity|]. split; [rewrite app_assoc, S1; exact I2|].
    split; [rewrite I3, <- app_assoc; reflexivity|]. rewrite T1. exact I4.
  - destruct K as (-> & K1 & K2). injection E as <- <- <- <-.
    exists ev, done, (p :: todo), (match ev with [] => b | _ => Some [] end). split; [exact G|].
    split. { unfold seen. rewrite <- app_assoc. f_equal. destruct b, K1 as [-> | ->]; reflexivity. }
    split; [reflexivity|]. split; [reflexivity|]. intros W. specialize (K2 W). destruct b as [b|]; [discriminate K2|].
    unfold file_at in K2. cbn. destruct (lookup p disk) as [[|b]|]; [reflexivity | discriminate K2 | reflexivity].
  - destruct K.
  - destruct K as (K1 & K2 & -> & b' & K3 & K4). destruct d1 as [|x d1]; [contradiction|]. injection E as <- <- <- <-.
    exists (match b with Some _ => [] | None => [FOpen p] end), done, (p :: todo), (Some b'). split; [exact G|].
    split. { unfold seen. rewrite <- app_assoc. f_equal. destruct b; reflexivity. }
    split; [reflexivity|]. split; [discriminate|]. split; [exact K2|]. split; [exists p, todo, r1; auto|]. split; [discriminate|].
    destruct b as [b|]; cbn.
    + injection K3 as ->. split; [cbn; rewrite <- app_assoc; reflexivity | reflexivity].
    + unfold file_at in K3. destruct (lookup p disk) as [[|b]|]; try discriminate K3. injection K3 as ->. cbn.
      split; [rewrite <- app_assoc; reflexivity | reflexivity].
Qed.

Lemma buffer_pos : (0 < buffer)%nat.
Proof. unfold buffer. lia. Qed.

(** A write. *)
Lemma file_write_spec d s w ok s' : file_write env d s = (w, ok, s') ->
  r_log s' = r_log s /\ (exists rest, d = w ++ rest) /\ (ok = true -> w = d) /\ (works env -> ok = true).
Proof.
  unfold file_write, ask. destruct (rc_fail (env (r_tick s))) eqn:C; intros E; injection E as <- <- <-.
  - split; [reflexivity|]. split; [exists (skipn (rc_more (env (r_tick s))) d); symmetry; apply firstn_skipn|]. split; [discriminate|].
    intros W. rewrite (W _) in C. discriminate C.
  - split; [reflexivity|]. split; [exists []; symmetry; apply app_nil_r|]. split; reflexivity.
Qed.

Lemma copy_limited_spec fuel : forall limit done todo b rs s w e rs' s', (limit <= fuel)%nat -> at_readers b todo rs ->
  copy_limited disk env fuel limit rs s = (w, e, rs', s') ->
  exists ev done' todo' b', r_log s' = r_log s ++ ev /\ seen b done todo ++ ev = seen b' done' todo' /\ done' ++ todo' = done ++ todo /\
    (List.length w <= limit)%nat /\
    match e with
    | None => at_readers b' todo' rs' /\ fst (to_come b todo) = w ++ fst (to_come b' todo') /\ snd (to_come b todo) = snd (to_come b' todo') /\
              (List.length w = limit \/ to_come b' todo' = ([], true)) /\ (List.length w = limit -> (0 < limit)%nat -> b' <> None)
              /\ (limit = O -> b' = b)
    | Some RErr => (exists rest, fst (to_come b todo) = w ++ rest) /\ (works env -> (List.length (fst (to_come b todo)) < limit)%nat /\ snd (to_come b todo) = false)
    | Some _ => False
    end.
Proof.
  induction fuel as [|fuel IH]; intros limit done todo b rs s w e rs' s' L A E.
  { destruct limit as [|limit]; [|lia]. cbn in E. injection E as <- <- <- <-. exists [], done, todo, b. rewrite !app_nil_r.
    repeat split; auto; try lia. }
  destruct limit as [|limit].
  { cbn in E. injection E as <- <- <- <-. exists [], done, todo, b. rewrite !app_nil_r. repeat split; auto; try lia. }
  cbn [copy_limited] in E. remember (Nat.min buffer (S limit)) as n eqn:N.
  assert (N0 : (0 < n <= S limit)%nat) by (pose proof buffer_pos; lia). clear N.
  destruct (multi_read disk env rs n s) as [[[d1 e1] rs1] s1] eqn:E1.
  destruct (multi_read_spec _ done _ _ _ _ _ _ _ _ (proj1 N0) A E1) as (ev & done1 & todo1 & b1 & M1 & M2 & M3 & M4).
  destruct e1 as [[| |]|].
  - destruct M4 as (-> & M4 & -> & -> & ->). injection E as <- <- <- <-. exists ev, done1, [], None.
    split; [exact M1|]. split; [exact M2|]. split; [exact M3|]. split; [cbn; lia|]. rewrite M4. cbn.
    repeat split; auto; try discriminate.
  - destruct M4 as (-> & M4). injection E as <- <- <- <-. exists ev, done1, todo1, b1.
    split; [exact M1|]. split; [exact M2|]. split; [exact M3|]. split; [cbn; lia|]. split; [eexists; reflexivity|].
    intros W. rewrite (M4 W). cbn. split; [lia | reflexivity].
  - destruct M4.
  - destruct M4 as (D & DL & A1 & B1 & F1 & T1). destruct d1 as [|x d1]; [contradiction|]. assert (D0 : (0 < List.length (x :: d1))%nat) by (cbn; lia). set (d := x :: d1) in *. clearbody d.
    destruct (file_write env d s1) as [[w2 ok2] s2] eqn:E2. destruct (file_write_spec _ _ _ _ _ E2) as (G2 & (rest2 & P2) & O2 & W2).
    destruct ok2.
    + rewrite (O2 eq_refl) in *. clear P2 O2. destruct (copy_limited disk env fuel (S limit - List.length d) rs1 s2) as [[[w3 e3] rs3] s3] eqn:E3.
      injection E as <- <- <- <-.
      assert (L1 : (S limit - List.length d <= fuel)%nat) by lia.
      destruct (IH _ done1 _ _ _ _ _ _ _ _ L1 A1 E3) as (ev3 & done3 & todo3 & b3 & I1 & I2 & I3 & I4 & I5).
      exists (ev ++ ev3), done3, todo3, b3. split; [rewrite I1, G2, M1, app_assoc; reflexivity|].
      split; [rewrite app_assoc, M2; exact I2|]. split; [rewrite I3; exact M3|]. rewrite app_length. split; [lia|].
      destruct e3 as [[| |]|]; try exact I5.
      * destruct I5 as ((rest & I5) & I6). rewrite F1, I5. split; [exists rest; rewrite app_assoc; reflexivity|].
        intros W. destruct (I6 W) as (I7 & I8). rewrite T1. split; [|exact I8]. rewrite app_length, <- I5. lia.
      * destruct I5 as (A3 & F3 & T3 & Z3 & B3 & C3). split; [exact A3|]. split; [rewrite F1, F3, app_assoc; reflexivity|].
        split; [rewrite T1; exact T3|]. split; [destruct Z3; [left; lia | right; assumption]|]. split.
        { intros X _. destruct (Nat.eq_dec (S limit - List.length d) 0) as [Y | Y]; [rewrite (C3 Y); exact B1 | apply B3; lia]. }
        intros X. discriminate X.
    + injection E as <- <- <- <-. exists ev, done1, todo1, b1. split; [rewrite G2; exact M1|]. split; [exact M2|]. split; [exact M3|].
      split. { apply (f_equal (@List.length byte)) in P2. rewrite app_length in P2. lia. }
      split; [exists (rest2 ++ fst (to_come b1 todo1)); rewrite F1, P2, <- app_assoc; reflexivity|].
      intros W. discriminate (W2 W).
Qed.

Lemma copy_n_spec n done todo b rs s w e rs' s' : at_readers b todo rs ->
  copy_n disk env n rs s = (w, e, rs', s') ->
  exists ev done' todo' b', r_log s' = r_log s ++ ev /\ seen b done todo ++ ev = seen b' done' todo' /\ done' ++ todo' = done ++ todo /\
    (exists rest, fst (to_come b todo) = w ++ rest) /\
    match e with
    | None => at_readers b' todo' rs' /\ fst (to_come b todo) = w ++ fst (to_come b' todo') /\ snd (to_come b todo) = snd (to_come b' todo') /\
              zlen w = Z.max 0 n /\ (0 < n -> b' <> None) /\ (n <= 0 -> b' = b)
    | Some RStuck => False
    | Some _ => works env -> zlen (fst (to_come b todo)) < n
    end.
Proof.
  intros A E. unfold copy_n in E. destruct (copy_limited disk env (Z.to_nat n) (Z.to_nat n) rs s) as [[[w1 e1] rs1] s1] eqn:E1.
  destruct (copy_limited_spec _ _ done _ _ _ _ _ _ _ _ (le_n _) A E1) as (ev & done' & todo' & b' & I1 & I2 & I3 & I4 & I5).
  destruct e1 as [[| |]|]; [destruct I5 | | destruct I5 |].
  - injection E as <- <- <- <-. destruct I5 as (I5 & I6). exists ev, done', todo', b'. repeat split; auto. intros W.
    destruct (I6 W) as (I7 & _). unfold zlen. lia.
  - destruct I5 as (A3 & F3 & T3 & Z3 & B3 & C3). destruct (zlen w1 <? n) eqn:Z; injection E as <- <- <- <-; exists ev, done', todo', b';
      (split; [exact I1|]); (split; [exact I2|]); (split; [exact I3|]); (split; [exists (fst (to_come b' todo')); exact F3|]).
    + intros _. apply Z.ltb_lt in Z. unfold zlen in Z. destruct Z3 as [Z3 | Z3]; [lia|]. rewrite F3, Z3. cbn. rewrite app_nil_r. unfold zlen. lia.
    + apply Z.ltb_ge in Z. unfold zlen in *. repeat split; auto; [lia | intros; apply B3; lia | intros; apply C3; lia].
Qed.

(** The file loop. *)
Lemma piece_events_app l m : piece_events (l ++ m) = piece_events l ++ piece_events m.
Proof. apply filter_app. Qed.
Lemma seen_pieces b done todo : piece_events (seen b done todo) = seen b done todo.
Proof.
  unfold seen. rewrite piece_events_app. f_equal; [|destruct b, todo; reflexivity].
  induction done as [|p done IH]; [reflexivity|]. change (one_by_one (p :: done)) with ([FOpen p; FClose p] ++ one_by_one done).
  rewrite piece_events_app, IH. reflexivity.
Qed.
Lemma ev_pieces b done todo ev b' done' todo' : seen b done todo ++ ev = seen b' done' todo' -> piece_events ev = ev.
Proof.
  intros E. apply (f_equal piece_events) in E as F. rewrite piece_events_app, !seen_pieces, <- E in F. apply app_inv_head in F. exact F.
Qed.
Lemma no_targets ev : piece_events ev = ev -> opened_targets ev = 0.
Proof.
  intros <-. induction ev as [|e ev IH]; [reflexivity|]. change (e :: ev) with ([e] ++ ev).
  rewrite piece_events_app, targets_app, IH. destruct e; reflexivity.
Qed.
Lemma zlen_nonneg {A} (l : list A) : 0 <= zlen l.
Proof. unfold zlen. lia. Qed.
Lemma total_nonneg files : 0 <= total files.
Proof. induction files as [|f files IH]; unfold total in *; cbn [fold_right]; lia. Qed.
Lemma total_cons p n files : total ((p, n) :: files) = Z.max 0 n + total files.
Proof. reflexivity. Qed.

Lemma copy_each_spec files : forall done todo b rs s ws e s', at_readers b todo rs ->
  copy_each disk env files rs s = (ws, e, s') ->
  exists ev done' todo' b', r_log s' = r_log s ++ ev /\ seen b done todo ++ piece_events ev = seen b' done' todo' /\ done' ++ todo' = done ++ todo /\
    (exists more, map fst files = map fst ws ++ more) /\ (exists rest, fst (to_come b todo) = concat (map snd ws) ++ rest) /\
    0 <= opened_targets ev <= 1 /\
    match e with
    | None => map fst ws = map fst files /\ map (fun f => zlen (snd f)) ws = map (fun f => Z.max 0 (snd f)) files /\
              opened_targets ev = 0 /\ (0 < total files \/ b <> None -> b' <> None /\ todo' <> [])
    | Some RStuck => False
    | Some _ => works env -> zlen (fst (to_come b todo)) < total files
    end.
Proof.
  induction files as [|(p, n) files IH]; intros done todo b rs s ws e s' A E; cbn [copy_each] in E.
  { injection E as <- <- <-. exists [], done, todo, b. rewrite !app_nil_r. cbn.
    assert (X : 0 < total [] \/ b <> None -> b <> None /\ todo <> []).
    { intros [X | X]; [cbn in X; lia|]. destruct b as [b|]; [|contradiction]. destruct A as (? & ? & ? & -> & _). split; discriminate. }
    split; [reflexivity|]. split; [reflexivity|]. split; [reflexivity|]. split; [exists []; reflexivity|].
    split; [exists (fst (to_come b todo)); reflexivity|]. split; [unfold opened_targets; cbn; lia|].
    split; [reflexivity|]. split; [reflexivity|]. split; [reflexivity | exact X]. }
  unfold ask in E. cbn [r_tick] in E.
  assert (Early : forall s1, ([], Some RErr, s1) = (ws, e, s') -> r_log s1 = r_log s -> ~ works env ->
    exists ev done' todo' b', r_log s' = r_log s ++ ev /\ seen b done todo ++ piece_events ev = seen b' done' todo' /\ done' ++ todo' = done ++ todo /\
    (exists more, map fst ((p, n) :: files) = map fst ws ++ more) /\ (exists rest, fst (to_come b todo) = concat (map snd ws) ++ rest) /\
    0 <= opened_targets ev <= 1 /\
    match e with
    | None => map fst ws = map fst ((p, n) :: files) /\ map (fun f => zlen (snd f)) ws = map (fun f => Z.max 0 (snd f)) ((p, n) :: files) /\
              opened_targets ev = 0 /\ (0 < total ((p, n) :: files) \/ b <> None -> b' <> None /\ todo' <> [])
    | Some RStuck => False
    | Some _ => works env -> zlen (fst (to_come b todo)) < total ((p, n) :: files)
    end).
  { intros s1 X Y NW. injection X as <- <- <-. exists [], done, todo, b. rewrite !app_nil_r. cbn.
    repeat split; try lia; [exact Y | exists (p :: map fst files); reflexivity | exists (fst (to_come b todo)); reflexivity | intros W; contradiction]. }
  destruct (rc_fail (env (r_tick s))) eqn:C1.
  { eapply Early; [exact E | reflexivity | intros W; rewrite (W _) in C1; discriminate C1]. }
  destruct (rc_fail (env (S (r_tick s)))) eqn:C2.
  { eapply Early; [exact E | reflexivity | intros W; rewrite (W _) in C2; discriminate C2]. }
  clear Early. cbn [r_log] in E.
  destruct (copy_n disk env n rs _) as [[[w1 e1] rs1] s1] eqn:E1 in E.
  destruct (copy_n_spec _ done _ _ _ _ _ _ _ _ A E1) as (ev & done1 & todo1 & b1 & I1 & I2 & I3 & (rest1 & I4) & I5).
  cbn [note_fd r_log] in I1. pose proof (ev_pieces _ _ _ _ _ _ _ I2) as PE.
  destruct e1 as [e1|].
  - injection E as <- <- <-. exists (TOpen p :: ev), done1, todo1, b1. rewrite I1, <- app_assoc.
    split; [reflexivity|]. change (piece_events (TOpen p :: ev)) with (piece_events ev). rewrite PE.
    split; [exact I2|]. split; [exact I3|]. split; [exists (map fst files); reflexivity|].
    split; [exists rest1; cbn; rewrite app_nil_r; exact I4|].
    change (TOpen p :: ev) with ([TOpen p] ++ ev). rewrite targets_app, (no_targets _ PE). split; [cbn; lia|].
    pose proof (total_nonneg files). destruct e1; [| |exact I5]; intros W; specialize (I5 W); rewrite total_cons; lia.
  - destruct I5 as (A1 & F1 & T1 & Z1 & B1 & C3).
    destruct (copy_each disk env files rs1 (note_fd (TClose p) s1)) as [[ws2 e2] s2] eqn:E2. injection E as <- <- <-.
    destruct (IH done1 _ _ _ _ _ _ _ A1 E2) as (ev2 & done2 & todo2 & b2 & J1 & J2 & J3 & (more & J4) & (rest2 & J5) & J6 & J7).
    exists ((TOpen p :: ev ++ [TClose p]) ++ ev2), done2, todo2, b2.
    split. { rewrite J1. cbn [note_fd r_log]. rewrite I1, <- !app_assoc. cbn. rewrite <- !app_assoc. reflexivity. }
    assert (P1 : piece_events ((TOpen p :: ev ++ [TClose p]) ++ ev2) = ev ++ piece_events ev2).
    { rewrite piece_events_app. f_equal. change (piece_events (ev ++ [TClose p]) = ev). rewrite piece_events_app, PE. apply app_nil_r. }
    rewrite P1, app_assoc, I2. split; [exact J2|]. split; [rewrite J3; exact I3|].
    split; [exists more; cbn; rewrite J4; reflexivity|].
    split; [exists rest2; cbn; rewrite F1, J5, app_assoc; reflexivity|].
    assert (T2 : opened_targets ((TOpen p :: ev ++ [TClose p]) ++ ev2) = opened_targets ev2).
    { rewrite targets_app. change (TOpen p :: ev ++ [TClose p]) with ([TOpen p] ++ ev ++ [TClose p]).
      rewrite !targets_app, (no_targets _ PE). cbn. lia. }
    rewrite T2. split; [exact J6|].
    assert (ZF : zlen (fst (to_come b todo)) = zlen w1 + zlen (fst (to_come b1 todo1))) by (rewrite F1; apply zlen_app_).
    destruct e2 as [[| |]|]; try exact J7.
    + intros W. specialize (J7 W). rewrite total_cons. lia.
    + intros W. specialize (J7 W). rewrite total_cons. lia.
    + destruct J7 as (K1 & K2 & K3 & K4). split; [cbn; f_equal; exact K1|]. split; [cbn; f_equal; [exact Z1 | exact K2]|]. split; [exact K3|].
      intros X. apply K4. destruct (Z_le_gt_dec n 0) as [Y | Y].
      * rewrite (C3 Y). destruct X as [X | X]; [left; rewrite total_cons in X; lia | right; exact X].
      * right. apply B1. lia.
Qed.

(** File.WriteTo. *)
Lemma drain_spec fuel : forall b s w e h s', (List.length b < fuel)%nat ->
  drain env fuel {| h_rest := Some b; h_closed := false |} s = (w, e, h, s') ->
  r_log s' = r_log s /\ h_closed h = false /\ (exists rest, b = w ++ rest) /\
  match e with
  | None => w = b
  | Some RErr => ~ works env
  | Some _ => False
  end.
Proof.
  induction fuel as [|fuel IH]; intros b s w e h s' L E; [lia|]. cbn [drain] in E.
  destruct (file_read env {| h_rest := Some b; h_closed := false |} buffer s) as [[[d1 e1] h1] s1] eqn:E1.
  destruct (file_read_open _ _ _ _ _ _ _ buffer_pos E1) as (G & H & K). destruct e1 as [[| |]|].
  - destruct K as (-> & -> & ->). injection E as <- <- <- <-. repeat split; auto. exists []. reflexivity.
  - destruct K as (-> & K). injection E as <- <- <- <-. repeat split; auto. exists b. reflexivity.
  - destruct K.
  - destruct K as (D & DL & b' & -> & ->). destruct (file_write env d1 s1) as [[w2 ok2] s2] eqn:E2.
    destruct (file_write_spec _ _ _ _ _ E2) as (G2 & (rest2 & P2) & O2 & W2). destruct ok2.
    + rewrite (O2 eq_refl) in *. destruct (drain env fuel {| h_rest := Some b'; h_closed := false |} s2) as [[[w3 e3] h3] s3] eqn:E3.
      injection E as <- <- <- <-. assert (L1 : (List.length b' < fuel)%nat).
      { rewrite app_length in L. destruct d1; [contradiction|]. cbn in L. lia. }
      destruct (IH _ _ _ _ _ _ L1 E3) as (I1 & I2 & (rest & I3) & I4). split; [rewrite I1, G2; exact G|]. split; [exact I2|].
      split; [exists rest; rewrite I3, app_assoc; reflexivity|]. destruct e3 as [[| |]|]; try exact I4. rewrite I4. reflexivity.
    + injection E as <- <- <- <-. split; [rewrite G2; exact G|]. split; [exact H|].
      split; [exists (rest2 ++ b'); rewrite P2, <- app_assoc; reflexivity|]. intros W. discriminate (W2 W).
Qed.
Lemma drain_dir s w e h s' : drain env 1 {| h_rest := None; h_closed := false |} s = (w, e, h, s') ->
  r_log s' = r_log s /\ w = [] /\ e = Some RErr /\ h_closed h = false.
Proof.
  cbn [drain]. destruct (file_read env {| h_rest := None; h_closed := false |} buffer s) as [[[d1 e1] h1] s1] eqn:E1.
  assert (H : h_closed h1 = false).
  { unfold file_read in E1. cbn [h_closed h_rest] in E1. destruct buffer; [injection E1 as <- <- <- <-; reflexivity|].
    unfold ask in E1. destruct (rc_fail (env (r_tick s))); injection E1 as <- <- <- <-; reflexivity. }
  destruct (file_read_dir _ _ _ _ _ _ buffer_pos E1) as (G & -> & ->). intros E. injection E as <- <- <- <-. repeat split; assumption.
Qed.

Lemma write_to_spec p r s w e r' s' : fresh p r -> lfr_write_to disk env r s = (w, e, r', s') ->
  exists ev, r_log s' = r_log s ++ ev /\
  match e with
  | None => file_at p = Some w /\ ev = [FOpen p; FClose p]
  | Some RErr => (w = [] \/ exists rest, file_at p = Some (w ++ rest)) /\ (ev = [] \/ ev = [FOpen p] \/ ev = [FOpen p; FClose p]) /\ (works env -> file_at p = None)
  | Some _ => False
  end.
Proof.
  intros O E. unfold lfr_write_to in E. destruct (chk r s) as [[e0 r0] s0] eqn:E0.
  pose proof (check_open_fresh _ _ _ _ _ _ O E0) as C. destruct e0 as [e0|].
  - destruct C as (-> & C1 & C2 & C3). unfold check_close in E. rewrite C2 in E.
    destruct (l_read r0 =? l_size r0); injection E as <- <- <- <-; exists []; rewrite app_nil_r; (split; [exact C1|]); (split; [left; reflexivity|]); (split; [left; reflexivity|]);
      intros W; unfold file_at; rewrite (C3 W); reflexivity.
  - destruct C as (C1 & [(b & L & (P & F & R) & R0) | (L & z & ->)]).
    + rewrite F in E. cbn [h_rest] in E.
      destruct (drain env (S (List.length b)) {| h_rest := Some b; h_closed := false |} s0) as [[[w1 e1] h1] s1] eqn:E1.
      destruct (drain_spec _ _ _ _ _ _ _ (Nat.lt_succ_diag_r _) E1) as (D1 & D2 & (rest & D3) & D4).
      unfold check_close, has_read in E. cbn [l_read l_size l_file l_path] in E. rewrite D2 in E.
      destruct e1 as [[| |]|]; [destruct D4 | | destruct D4 | subst w1].
      * destruct (l_read r0 + zlen w1 =? l_size r0) eqn:Q; injection E as <- <- <- <-.
        -- exists [FOpen p; FClose p]. cbn [note_fd r_log]. rewrite D1, C1, P, <- app_assoc. split; [reflexivity|].
           split; [right; exists rest; unfold file_at; rewrite L, D3; reflexivity|]. split; [right; right; reflexivity|]. intros W. contradiction.
        -- exists [FOpen p]. rewrite D1, C1. split; [reflexivity|].
           split; [right; exists rest; unfold file_at; rewrite L, D3; reflexivity|]. split; [right; left; reflexivity|]. intros W. contradiction.
      * replace (l_read r0 + zlen b =? l_size r0) with true in E by (symmetry; apply Z.eqb_eq; exact R). injection E as <- <- <- <-.
        exists [FOpen p; FClose p]. cbn [note_fd r_log]. rewrite D1, C1, P, <- app_assoc. split; [reflexivity|]. unfold file_at. rewrite L. split; reflexivity.
    + cbn [l_file h_rest] in E. destruct (drain env 1 {| h_rest := None; h_closed := false |} s0) as [[[w1 e1] h1] s1] eqn:E1.
      destruct (drain_dir _ _ _ _ _ E1) as (D1 & -> & -> & D2). unfold check_close, has_read in E. cbn [l_read l_size l_file l_path] in E. rewrite D2 in E.
      destruct (0 + zlen [] =? z); injection E as <- <- <- <-.
      * exists [FOpen p; FClose p]. cbn [note_fd r_log]. rewrite D1, C1, <- app_assoc. split; [reflexivity|].
        split; [left; reflexivity|]. split; [right; right; reflexivity|]. intros _. unfold file_at. rewrite L. reflexivity.
      * exists [FOpen p]. rewrite D1, C1. split; [reflexivity|].
        split; [left; reflexivity|]. split; [right; left; reflexivity|]. intros _. unfold file_at. rewrite L. reflexivity.
Qed.

Lemma copy_all_spec ps : forall s w e s', copy_all disk env (map lazy ps) s = (w, e, s') ->
  exists ev, r_log s' = r_log s ++ ev /\ (exists rest, fst (contents disk ps) = w ++ rest) /\
  match e with
  | None => contents disk ps = (w, true) /\ ev = one_by_one ps
  | Some RErr => (exists done tail, ev = one_by_one done ++ tail /\ (tail = [] \/ exists p, tail = [FOpen p])) /\ (works env -> snd (contents disk ps) = false)
  | Some _ => False
  end.
Proof.
  induction ps as [|p ps IH]; intros s w e s' E; cbn [map copy_all] in E.
  { injection E as <- <- <-. exists []. rewrite app_nil_r. repeat split. exists []. reflexivity. }
  destruct (lfr_write_to disk env (lazy p) s) as [[[w1 e1] r1] s1] eqn:E1.
  destruct (write_to_spec p _ _ _ _ _ _ (fresh_lazy p) E1) as (ev & G & K). unfold file_at in K. cbn [contents]. destruct e1 as [[| |]|].
  - destruct K.
  - injection E as <- <- <-. destruct K as (K1 & K2 & K3). exists ev. split; [exact G|]. split; [|split].
    + destruct K1 as [-> | (rest & K1)]; [eexists; reflexivity|]. destruct (lookup p disk) as [[|b]|]; try discriminate K1. injection K1 as ->.
      cbn. exists (rest ++ fst (contents disk ps)). rewrite app_assoc. reflexivity.
    + destruct K2 as [-> | [-> | ->]]; [exists [], [] | exists [], [FOpen p] | exists [p], []]; split; eauto.
    + intros W. specialize (K3 W). destruct (lookup p disk) as [[|b]|]; [reflexivity | discriminate K3 | reflexivity].
  - destruct K.
  - destruct K as (K1 & ->). destruct (lookup p disk) as [[|b]|]; try discriminate K1. injection K1 as ->. cbn [fst snd].
    destruct (copy_all disk env (map lazy ps) s1) as [[w2 e2] s2] eqn:E2. injection E as <- <- <-.
    destruct (IH _ _ _ _ E2) as (ev2 & I1 & (rest & I2) & I3). exists ([FOpen p; FClose p] ++ ev2).
    split; [rewrite I1, G, app_assoc; reflexivity|]. split; [exists rest; rewrite I2, app_assoc; reflexivity|].
    destruct e2 as [[| |]|]; try exact I3.
    + destruct I3 as ((done & tail & -> & I3) & I4). split; [|exact I4]. exists (p :: done), tail. split; [reflexivity | exact I3].
    + destruct I3 as (I3 & ->). rewrite I3. split; reflexivity.
Qed.
End Proofs.
