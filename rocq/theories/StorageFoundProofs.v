From Verif Require Import GoBase GoBaseProofs Strconv BencDecode Bitfield BitfieldSpec BitfieldProofs Metainfo MetainfoSpec MetainfoProofs
  Fs FsProofs Storage StorageSys StorageSpec StorageSysSpec StorageMemSpec StorageFsProofs StorageIoProofs StorageCoalesceProofs StorageProofs StorageGetProofs StorageLoadProofs StorageSysProofs StorageFoundSpec.

Lemma span_split s : exists r, s = fst (span_digits s) ++ r /\ r = snd (span_digits s) /\ forallb is_digit (fst (span_digits s)) = true.
Proof.
  induction s as [|c s (r & E & -> & D)]; [exists []; auto|]. cbn [span_digits]. destruct (is_digit c) eqn:C; [|exists (c :: s); auto].
  destruct (span_digits s) as [a b]. cbn [fst snd] in *. exists b. split; [cbn; congruence|]. split; [reflexivity|]. cbn. now rewrite C.
Qed.
Lemma is_sign c : beqb c "-"%byte || beqb c "+"%byte = true <-> [c] = bs "-" \/ [c] = bs "+".
Proof. rewrite orb_true_iff, !beqb_eq. split; (intros [H|H]; [left|right]); [now subst|now subst|injection H; auto|injection H; auto]. Qed.
Definition number_like (name : bytes) (k : Z) : Prop :=
  exists sign digits rest, name = sign ++ digits ++ bs ".piece" ++ rest /\ (sign = [] \/ sign = bs "-" \/ sign = bs "+") /\
    digits <> [] /\ forallb is_digit digits = true /\ parse_int (sign ++ digits) = Some k.
Lemma scan_numbers s k : scan_number s = Some k <-> number_like s k.
Proof.
  split.
  - unfold scan_number. intros H. set (q := match s with c :: s' => if beqb c "-"%byte || beqb c "+"%byte then ([c], s') else ([], s) | [] => ([], []) end) in H.
    assert (s = fst q ++ snd q /\ (fst q = [] \/ fst q = bs "-" \/ fst q = bs "+")) as [E S].
    { unfold q. destruct s as [|c s']; [auto|]. destruct (beqb c "-"%byte || beqb c "+"%byte) eqn:C; [|auto]. split; [reflexivity|]. right. now apply is_sign. }
    destruct q as [sign s1]. cbn [fst snd] in *. destruct (span_split s1) as (r & E1 & E2 & D). destruct (span_digits s1) as [digits rest]. cbn [fst snd] in *. subst r.
    destruct digits as [|d ds]; [discriminate|]. destruct (bytes_eqb (firstn 6 rest) (bs ".piece")) eqn:P; [|discriminate]. apply bytes_eqb_eq in P.
    exists sign, (d :: ds), (skipn 6 rest). split; [rewrite E, E1; f_equal; f_equal; rewrite <- P; symmetry; apply firstn_skipn|]. split; [exact S|]. split; [discriminate|]. auto.
  - intros (sign & digits & rest & -> & S & N & D & P). unfold scan_number.
    assert ((match sign ++ digits ++ bs ".piece" ++ rest with c :: s' => if beqb c "-"%byte || beqb c "+"%byte then ([c], s') else ([], sign ++ digits ++ bs ".piece" ++ rest) | [] => ([], []) end)
      = (sign, digits ++ bs ".piece" ++ rest)) as ->.
    { destruct S as [->|[->| ->]]; [|reflexivity|reflexivity]. cbn [app]. destruct digits as [|c l]; [congruence|]. cbn [app]. cbn in D. apply andb_true_iff in D as [D _].
      destruct (beqb c "-"%byte || beqb c "+"%byte) eqn:C; [|reflexivity]. exfalso. apply is_sign in C as [C|C]; injection C as ->; discriminate. }
    rewrite span_digits_app; [|exact D|reflexivity]. destruct digits as [|d ds]; [congruence|]. cbn [bs app firstn]. exact P.
Qed.
Lemma blanks_white p : In p blanks <-> white p.
Proof.
  split.
  - intros H. vm_compute in H. repeat (destruct H as [<-|H]; [unfold white; first [tauto | do 8 right; left; eexists; split; [reflexivity|]; first [tauto | left; vm_compute; split; discriminate]]|]). destruct H.
  - unfold white. intros H. assert (forall l, existsb (bytes_eqb l) blanks = true -> In l blanks) as X.
    { intros l Hl. apply existsb_exists in Hl as (x & Hx & Ex). apply bytes_eqb_eq in Ex. congruence. }
    apply X. repeat (destruct H as [->|H]; [vm_compute; reflexivity|]).
    destruct H as [(c & -> & H)|[->| ->]]; [|vm_compute; reflexivity|vm_compute; reflexivity].
    destruct H as [H|[->|[->| ->]]]; [|vm_compute; reflexivity..]. destruct c; vm_compute in H; first [vm_compute; reflexivity | exfalso; destruct H as [H1 H2]; first [apply H1; reflexivity | apply H2; reflexivity]].
Qed.
Lemma blank_unique p q r : In p blanks -> In q blanks -> bytes_eqb (firstn (List.length p) (q ++ r)) p = true -> p = q.
Proof.
  assert (forallb (fun p => forallb (fun q => bytes_eqb p q || negb (bytes_eqb (firstn (Nat.min (List.length p) (List.length q)) p) (firstn (Nat.min (List.length p) (List.length q)) q))) blanks) blanks = true) as B by (vm_compute; reflexivity).
  intros Hp Hq E. apply bytes_eqb_eq in E. rewrite forallb_forall in B. specialize (B p Hp). cbv beta in B. rewrite forallb_forall in B. specialize (B q Hq).
  apply orb_true_iff in B as [B|B]; [now apply bytes_eqb_eq in B|]. exfalso. apply negb_true_iff in B.
  assert (firstn (Nat.min (List.length p) (List.length q)) p = firstn (Nat.min (List.length p) (List.length q)) q) as X; [|rewrite X in B; assert (forall l, bytes_eqb l l = true) as Y by (intros; now apply bytes_eqb_eq); rewrite Y in B; discriminate].
  rewrite <- E at 2. rewrite firstn_firstn, firstn_app. rewrite (Nat.min_l _ (List.length p)) by lia.
  replace (Nat.min (List.length p) (List.length q) - List.length q)%nat with 0%nat by lia. cbn [firstn]. now rewrite app_nil_r.
Qed.
Lemma skip_split fuel : forall s, exists space, s = concat space ++ skip_blanks fuel s /\ Forall white space.
Proof.
  induction fuel as [|fuel IH]; intros s; cbn [skip_blanks]; [exists []; auto|]. destruct (List.find _ blanks) as [p|] eqn:F; [|exists []; auto].
  apply List.find_some in F as [Hp F]. apply bytes_eqb_eq in F. destruct (IH (skipn (List.length p) s)) as (l & E & W). exists (p :: l). split; [|constructor; [now apply blanks_white|exact W]].
  cbn [concat]. rewrite <- app_assoc, <- E. rewrite <- F at 1. symmetry. apply firstn_skipn.
Qed.
Lemma skip_all space : forall fuel s, Forall white space -> plain_start s -> (List.length space <= fuel)%nat -> skip_blanks fuel (concat space ++ s) = s.
Proof.
  induction space as [|q space IH]; intros fuel s W P L; [now apply skip_none|]. destruct fuel as [|fuel]; [cbn in L; lia|]. inversion W; subst. cbn [concat skip_blanks].
  assert (In q blanks) as Hq by now apply blanks_white. rewrite <- app_assoc. destruct (List.find _ blanks) as [p|] eqn:F.
  - apply List.find_some in F as [Hp F]. apply blank_unique in F; [|exact Hp|exact Hq]. subst p. rewrite skipn_app, skipn_all, Nat.sub_diag. cbn [skipn app]. apply IH; [assumption|exact P|cbn in L; lia].
  - apply List.find_none with (x := q) in F; [|exact Hq]. rewrite firstn_app, firstn_all, Nat.sub_diag in F. cbn [firstn] in F. rewrite app_nil_r in F. assert (bytes_eqb q q = true) by now apply bytes_eqb_eq. congruence.
Qed.
Lemma white_length space : Forall white space -> (List.length space <= List.length (concat space))%nat.
Proof.
  induction 1 as [|p l W _ IH]; [cbn; lia|]. cbn [concat List.length]. rewrite app_length. assert (p <> []) by (intros ->; apply blanks_white in W; vm_compute in W; repeat (destruct W as [W|W]; [discriminate|]); exact W).
  destruct p; [congruence|]. cbn [List.length]. lia.
Qed.
Lemma scan_starts s k : scan_piece_name s = Some k <-> starts_like s k.
Proof.
  unfold scan_piece_name. rewrite scan_numbers. split.
  - intros (sign & digits & rest & E & H). destruct (skip_split (List.length s) s) as (space & E1 & W). exists space, sign, digits, rest. rewrite E in E1. tauto.
  - intros (space & sign & digits & rest & E & W & H). exists sign, digits, rest. split; [|exact H]. rewrite E. apply skip_all; [exact W| |].
    + destruct H as (S & N & D & _). destruct S as [->|[->| ->]]; [|cbn; auto..]. destruct digits as [|c l]; [congruence|]. cbn in *. apply andb_true_iff in D as [D _]. auto.
    + rewrite app_length. pose proof (white_length space W). lia.
Qed.

Section Found.
Variable sha1 : bytes -> bytes.
Variable cfg : config.
Variable env : nat -> choice.
Hypothesis ok : config_ok cfg.
Notation i := (c_info cfg).
Notation n := (num_pieces i).

(** No panic, and the memory stays. *)
Definition tame {A} (a : io A) : Prop := forall w w' r, a w = (w', r) -> w_mem w' = w_mem w /\ r <> Panic.
Lemma tame_ret {A} (x : A) : tame (ret x). Proof. intros w w' r [= <- <-]. split; [reflexivity|discriminate]. Qed.
Lemma tame_fails {A} e : tame (@fails A e). Proof. intros w w' r [= <- <-]. split; [reflexivity|discriminate]. Qed.
Lemma tame_act ef : tame (act env ef).
Proof. intros w w' r. unfold act. destruct (if ch_fail _ then None else _); intros [= <- <-]; (split; [reflexivity|discriminate]). Qed.
Lemma tame_bind {A B} (a : io A) (k : A -> io B) : tame a -> (forall x, tame (k x)) -> tame (bind a k).
Proof.
  intros Ta Tk w w' r. unfold bind. destruct (a w) as [w1 [x|e|]] eqn:E; intros H; destruct (Ta _ _ _ E) as [E1 E2].
  - destruct (Tk x _ _ _ H) as [E3 E4]. split; [congruence|exact E4].
  - injection H as <- <-. split; [exact E1|discriminate].
  - congruence.
Qed.
Lemma tame_look {A} (q : choice -> fs -> option A) : tame (look env q).
Proof. intros w w' r. unfold look. intros [= <- <-]. split; [reflexivity|]. destruct (if ch_fail _ then None else _); discriminate. Qed.
Lemma tame_copy temp files : forall data, tame (copy_files env temp files data).
Proof.
  induction files as [|f l IH]; intros data; cbn [copy_files]; [apply tame_ret|]. apply tame_bind; [destruct (f_path f); [apply tame_fails|apply tame_ret]|intros _].
  apply tame_bind; [apply tame_act|intros _]. apply tame_bind; [apply tame_act|intros _]. apply tame_bind; [apply tame_act|intros _].
  apply tame_bind; [destruct (_ <? _)%nat; [apply tame_fails|apply tame_ret]|intros _]. apply IH.
Qed.
(** No panic while the future of the torrent is not delivered; this holds until the last step. *)
Definition fresh_err (w : world) : Prop := nth_error (t_futures (w_mem w)) (t_err (w_mem w)) = Some None.
Definition calmly {A} (a : io A) : Prop := forall w w' r, fresh_err w -> a w = (w', r) -> t_bitfield (w_mem w') = t_bitfield (w_mem w) /\ r <> Panic.
Lemma calmly_bind {A B} (a : io A) (k : A -> io B) : tame a -> (forall x, calmly (k x)) -> calmly (bind a k).
Proof.
  intros Ta Tk w w' r F. unfold bind. destruct (a w) as [w1 [x|e|]] eqn:E; intros H; destruct (Ta _ _ _ E) as [E1 E2].
  - rewrite <- E1. apply (Tk x w1 w' r); [unfold fresh_err; now rewrite E1|exact H].
  - injection H as <- <-. split; [now rewrite E1|discriminate].
  - congruence.
Qed.
Lemma calmly_finally {A} (a : io A) c : calmly a -> tame c -> calmly (finally a c).
Proof.
  intros C T w w' r F. unfold finally. destruct (a w) as [w1 x] eqn:E. destruct (c w1) as [w2 y] eqn:E2. intros [= <- <-]. destruct (C _ _ _ F E) as [C1 C2], (T _ _ _ E2) as [T1 _].
  split; [congruence|exact C2].
Qed.
Lemma calmly_complete : calmly complete_torrent.
Proof. intros w w' r F. unfold complete_torrent, deliver, bind, get_mem, set_mem. cbn. unfold fresh_err in F. rewrite F. intros [= <- <-]. split; [reflexivity|discriminate]. Qed.
Lemma calmly_mem {A} (k : mem -> io A) : (forall m, calmly (k m)) -> calmly (bind get_mem k).
Proof. intros C w w' r F. unfold bind, get_mem. now apply C. Qed.
Lemma tame_temp nd dir pat : tame (temp_file env nd dir pat).
Proof. intros w w' r. unfold temp_file. apply tame_bind; [apply tame_act|intros _; apply tame_ret]. Qed.
Lemma calmly_coalesce : calmly (coalesce_pieces cfg env).
Proof.
  unfold coalesce_pieces. apply calmly_mem. intros m. destruct (negb _); [intros w w' r _ [= <- <-]; split; [reflexivity|discriminate]|].
  destruct (i_files (the_info cfg)).
  - unfold coalesce_single. apply calmly_bind; [apply tame_act|intros _]. apply calmly_bind; [apply tame_temp|intros t]. apply calmly_finally; [|apply tame_act]. apply calmly_mem. intros m'.
    apply calmly_bind; [apply tame_look|intros x]. apply calmly_bind; [apply tame_act|intros _]. apply calmly_bind; [destruct (snd x); [apply tame_ret|apply tame_fails]|intros _].
    apply calmly_bind; [apply tame_act|intros _]. apply calmly_bind; [apply tame_act|intros _]. apply calmly_complete.
  - unfold coalesce_multi. apply calmly_bind; [apply tame_act|intros _]. apply calmly_bind; [apply tame_temp|intros t]. apply calmly_finally; [|apply tame_act]. apply calmly_mem. intros m'.
    apply calmly_bind; [apply tame_look|intros x]. apply calmly_bind; [apply tame_copy|intros _].
    apply calmly_bind; [apply tame_act|intros _]. apply calmly_bind; [apply tame_act|intros _]. apply calmly_complete.
Qed.

Notation loading := (loading cfg).
Lemma again done k w : loading done (w_mem w) -> ~ 0 <= k < n \/ In k done -> snd (complete_piece k w) = Panic.
Proof using ok sha1 env.
  intros ((M1 & M2 & _) & _ & L) H. unfold complete_piece, piece_at, bind, get_mem. destruct (k <? 0) eqn:K; [reflexivity|].
  destruct (nth_error (t_pieces (w_mem w)) (Z.to_nat k)) as [p|] eqn:P; [|reflexivity]. cbn. destruct H as [H|H].
  - exfalso. assert (Z.to_nat k < List.length (t_pieces (w_mem w)))%nat by (apply nth_error_Some; congruence). unfold num_pieces, zlen in H. lia.
  - assert (pc_coalesced p = true) as C by (apply (proj2 (L _ _ P)); rewrite Z2Nat.id by lia; exact H). destruct (M2 _ _ P) as (_ & _ & _ & _ & _ & _ & Q & _). unfold deliver, bind, get_mem.
    now rewrite (Q C).
Qed.
Definition bad (done : list Z) (names : list bytes) : Prop :=
  exists a nm b k, names = a ++ nm :: b /\ scan_piece_name nm = Some k /\ (~ 0 <= k < n \/ In k done \/ exists nm', In nm' a /\ scan_piece_name nm' = Some k).
Lemma bad_skip done nm names : scan_piece_name nm = None -> bad done (nm :: names) <-> bad done names.
Proof.
  intros S. split.
  - intros (a & x & b & k & E & Sk & H). destruct a as [|y a]; cbn in E; injection E as <- E; [congruence|]. exists a, x, b, k. split; [exact E|]. split; [exact Sk|].
    destruct H as [H|[H|(z & [<-|H] & Sz)]]; [auto|auto|congruence|eauto].
  - intros (a & x & b & k & -> & Sk & H). exists (nm :: a), x, b, k. split; [reflexivity|]. split; [exact Sk|]. destruct H as [H|[H|(z & H & Sz)]]; [auto|auto|]. right. right. exists z. split; [now right|exact Sz].
Qed.
Lemma bad_cons done nm k names : scan_piece_name nm = Some k -> 0 <= k < n -> ~ In k done -> bad done (nm :: names) <-> bad (k :: done) names.
Proof.
  intros S R N. split.
  - intros (a & x & b & k' & E & Sk & H). destruct a as [|y a]; cbn in E; injection E as <- E.
    + assert (k' = k) as -> by congruence. destruct H as [H|[H|(z & [] & _)]]; contradiction.
    + exists a, x, b, k'. split; [exact E|]. split; [exact Sk|]. destruct H as [H|[H|(z & [<-|H] & Sz)]]; [auto|right; left; now right| |eauto]. right. left. left. congruence.
  - intros (a & x & b & k' & -> & Sk & H). exists (nm :: a), x, b, k'. split; [reflexivity|]. split; [exact Sk|].
    destruct H as [H|[[<-|H]|(z & H & Sz)]]; [auto| |auto|]; right; right; [exists nm; split; [now left|exact S]|exists z; split; [now right|exact Sz]].
Qed.
Lemma entries names : forall done w w' r, loading done (w_mem w) -> load_entries cfg env names w = (w', r) ->
  match r with
  | Panic => bad done names
  | Ok _ => ~ bad done names /\ exists done', loading done' (w_mem w') /\ forall k, In k done' <-> In k done \/ exists nm, In nm names /\ scan_piece_name nm = Some k
  | Err _ => (forall nm, In nm names -> lookup (piece_dir cfg ++ [nm]) (w_fs w) <> None) -> exists t, ch_fail (env t) = true
  end.
Proof using ok sha1.
  induction names as [|nm names IH]; intros done w w' r L E; cbn [load_entries] in E.
  - injection E as <- <-. split; [intros ([|] & x & b & k & H & _); discriminate|]. exists done. split; [exact L|]. intros k. split; [now left|]. intros [H|(x & [] & _)]; exact H.
  - destruct (scan_piece_name nm) as [k|] eqn:S.
    2: { apply IH with (done := done) in E; [|exact L]. destruct r; [rewrite bad_skip by exact S; destruct E as (E & done' & L' & Hd); split; [exact E|]; exists done'; split; [exact L'|]; intros k; rewrite Hd; split; (intros [H|(x & Hx & Sx)]; [now left|]); [right; exists x; split; [now right|exact Sx]|destruct Hx as [<-|Hx]; [congruence|eauto]]|intros H; apply E; intros x Hx; apply H; now right|now apply bad_skip]. }
    unfold bind at 1 in E. match type of E with context [look env ?q w] => destruct (look env q w) as [w1 r1] eqn:E1 end. unfold look in E1.
    injection E1 as E1 E2. destruct r1 as [size|e|].
    2: { injection E as <- <-. intros H. exists (w_tick w). destruct (ch_fail (env (w_tick w))); [reflexivity|]. exfalso. specialize (H nm (or_introl eq_refl)).
         destruct (lookup (piece_dir cfg ++ [nm]) (w_fs w)) as [[|]|]; [discriminate|discriminate|congruence]. }
    2: { destruct (if ch_fail (env (w_tick w)) then None else _); discriminate. }
    clear E2. unfold bind at 1 in E. unfold add_downloaded, bind at 1, get_mem, set_mem in E.
    set (w2 := {| w_fs := w_fs w1; w_past := w_past w1; w_tick := w_tick w1; w_mem := _ |}) in E.
    assert (L2 : loading done (w_mem w2)) by (cbn; subst w1; cbn; exact L). assert (F2 : w_fs w2 = w_fs w) by (cbn; now subst w1).
    unfold bind at 1 in E. assert (0 <= k < n \/ ~ 0 <= k < n) as [R|R] by lia.
    + destruct (in_dec Z.eq_dec k done) as [I|I].
      * pose proof (again _ k w2 L2 (or_intror I)) as A. destruct (complete_piece k w2) as [w3 [| |]]; try discriminate. injection E as <- <-.
        exists [], nm, names, k. auto.
      * destruct (loading_step sha1 cfg env ok done k w2 L2 R I) as (m3 & E3 & L3 & _). rewrite E3 in E. apply IH with (done := k :: done) in E; [|exact L3].
        destruct r; [rewrite (bad_cons done nm k) by assumption; destruct E as (E & done' & L' & Hd); split; [exact E|]; exists done'; split; [exact L'|]; intros k'; rewrite Hd; split; [intros [[<-|H]|(x & Hx & Sx)]; [right; exists nm; split; [now left|exact S]|now left|right; exists x; split; [now right|exact Sx]]|intros [H|(x & [<-|Hx] & Sx)]; [left; now right|left; left; congruence|eauto]]| |now apply (bad_cons done nm k)]. intros H. apply E. cbn [with_mem w_fs]. intros x Hx. change (w_fs w1) with (w_fs w2). rewrite F2. apply H. now right.
    + pose proof (again _ k w2 L2 (or_introl R)) as A. destruct (complete_piece k w2) as [w3 [| |]]; try discriminate. injection E as <- <-.
      exists [], nm, names, k. auto.
Qed.

Lemma bad_stray f : NoDup (keys f) -> (bad [] (names_in (pieces_dir cfg) f) <-> exists nm, stray cfg f nm).
Proof.
  intros Nd. destruct (names_in_spec (pieces_dir cfg) f Nd) as [Nn Hn]. split.
  - intros (a & nm & b & k & E & S & H). exists nm. rewrite E in Nn. split; [apply Hn; rewrite E; apply in_elt|]. exists k. split; [now apply scan_starts|].
    destruct H as [H|[[]|(x & Hx & Sx)]]; [auto|]. right. exists x. split; [|split; [apply Hn; rewrite E; apply in_or_app; now left|now apply scan_starts]].
    intros ->. apply NoDup_remove_2 in Nn. apply Nn. apply in_or_app. now left.
  - intros (nm & F & k & S & H). apply Hn in F. apply scan_starts in S. destruct H as [H|(x & Ne & Fx & Sx)].
    + apply in_split in F as (a & b & E). exists a, nm, b, k. auto.
    + apply Hn in Fx. apply scan_starts in Sx. apply in_split in F as (a & b & E). rewrite E in Fx. apply in_app_or in Fx as [Fx|[Fx|Fx]]; [|congruence|].
      * exists a, nm, b, k. split; [exact E|]. split; [exact S|]. right. right. eauto.
      * apply in_split in Fx as (c & d & ->). exists (a ++ nm :: c), x, d, k. split; [rewrite E, <- app_assoc; reflexivity|]. split; [exact Sx|]. right. right. exists nm. split; [apply in_elt|exact S].
Qed.
Lemma loads_done done m : loading done m -> forall k, member (t_bitfield m) k <-> 0 <= k < n /\ In k done.
Proof using ok sha1 env.
  intros (M2 & C2 & P2) k. pose proof M2 as (_ & _ & _ & _ & _ & M6 & _). rewrite M6. split.
  - intros [K (p & Hp & C)]. pose proof (piece_bound sha1 cfg env ok _ _ _ _ M2 Hp) as B. apply (P2 _ _ Hp) in C. rewrite Z2Nat.id in * by lia. auto.
  - intros [K H]. split; [lia|]. destruct (piece_exists sha1 cfg env ok _ _ _ M2 K) as [p Hp]. exists p. split; [exact Hp|]. apply (P2 _ _ Hp). rewrite Z2Nat.id by lia. exact H.
Qed.
Lemma loads_none m : loading [] m -> forall k, ~ member (t_bitfield m) k.
Proof using ok sha1 env. intros L k. rewrite (loads_done _ _ L). intros [_ []]. Qed.
Lemma load_cases f tick w' r : NoDup (keys f) -> load cfg env (booted cfg f tick) = (w', r) ->
  match lookup (target cfg) f with
  | Some _ => (r = Err EIO /\ exists t, ch_fail (env t) = true) \/ (r = Ok tt /\ w_fs w' = f /\ forall k, member (advertised w') k <-> 0 <= k < n)
  | None => (r = Panic -> lookup (pieces_dir cfg) f = Some NDir /\ exists nm, stray cfg f nm) /\
            (lookup (pieces_dir cfg) f = Some NDir -> (exists nm, stray cfg f nm) -> (forall t, ch_fail (env t) = false) -> r = Panic) /\
            (r = Ok tt -> forall k, member (advertised w') k <-> lookup (pieces_dir cfg) f = Some NDir /\ exists nm, found cfg f nm /\ starts_like nm k)
  end.
Proof using ok sha1.
  intros Nd E. unfold load, bind at 1 in E.
  match type of E with match ?X with _ => _ end = _ => destruct X as [w1 r1] eqn:E1 end. pose proof E1 as R1. apply (look_run cfg env ok) in E1 as [(S1 & S2 & S3) H1]. cbn in S1, S2, S3.
  destruct r1 as [st|e|]; [| |easy].
  2: { injection E as <- <-. unfold look in R1. injection R1 as _ R1. cbn in R1. destruct (ch_fail (env tick)) eqn:Cf; [|discriminate]. injection R1 as <-.
       destruct (lookup (target cfg) f); [left; eauto|]. split; [discriminate|]. split; [|discriminate]. intros _ _ H. congruence. }
  destruct H1 as [c H1]. change (w_fs (booted cfg f tick)) with f in H1. injection H1 as H1. rewrite (target_path_eq cfg ok) in H1. clear R1.
  destruct (lookup (target cfg) f) as [nd|] eqn:Et.
  - right. assert (exists size, st = Some size) as (size & ->) by (destruct nd; eexists; symmetry; exact H1). clear H1.
    assert (L0 : loading [] (w_mem w1)) by (rewrite S3; exact (new_mem_loading sha1 cfg env ok)). cbv iota in E. unfold bind at 1 in E.
    destruct (complete_all_run sha1 cfg env ok (List.length (i_pieces i)) 0 [] w1 L0) as (m2 & E2 & D2 & done & L2 & Hd); [easy|lia|unfold num_pieces, zlen; lia|].
    change (the_info cfg) with i in E. rewrite E2 in E. destruct L2 as (M2 & C2 & P2). pose proof M2 as (_ & _ & _ & M4 & _ & M6 & _). rewrite C2 in M4.
    unfold complete_torrent, deliver, add_downloaded, bind, get_mem, set_mem in E. cbn in E. rewrite M4 in E. cbn in E. injection E as <- <-. cbn. rewrite S1.
    split; [reflexivity|]. split; [reflexivity|]. intros k. unfold advertised. cbn. rewrite M6. split.
    + intros [K (p & Hp & _)]. pose proof (piece_bound sha1 cfg env ok _ _ _ _ M2 Hp). rewrite Z2Nat.id in * by lia. assumption.
    + intros K. split; [lia|]. destruct (piece_exists sha1 cfg env ok _ _ _ M2 K) as [p Hp]. exists p. split; [exact Hp|]. apply (P2 _ _ Hp). apply Hd. right. unfold num_pieces, zlen in *. lia.
  - subst st. cbv iota in E. unfold bind at 1 in E. rewrite (piece_dir_eq cfg ok) in E.
    match type of E with match ?X with _ => _ end = _ => destruct X as [w2 r2] eqn:E2 end. pose proof E2 as R2. apply (look_run cfg env ok) in E2 as [(T1 & T2 & T3) H2].
    rewrite S1 in T1, H2. rewrite S3 in T3. unfold look in R2. injection R2 as _ R2. rewrite S1 in R2.
    destruct r2 as [names|e|]; [| |easy].
    2: { injection E as <- <-. split; [discriminate|]. split; [|discriminate]. intros Dd _ Nf. rewrite Nf, Dd in R2. discriminate. }
    destruct H2 as [c2 H2]. clear R2. destruct (lookup (pieces_dir cfg) f) as [[|b]|] eqn:Dd; [|discriminate|].
    2: { injection H2 as <-. injection E as <- <-. split; [discriminate|]. split; [discriminate|]. intros _ k. split; [|intros [H _]; discriminate]. unfold advertised. rewrite T3. intros H. exfalso.
      exact (loads_none _ (new_mem_loading sha1 cfg env ok) k H). }
    injection H2 as <-. unfold bind at 1 in E. destruct (load_entries cfg env (names_in (pieces_dir cfg) f) w2) as [w3 r3] eqn:E3.
    assert (L2 : loading [] (w_mem w2)) by (rewrite T3; exact (new_mem_loading sha1 cfg env ok)).
    pose proof (entries _ _ _ _ _ L2 E3) as H3. destruct r3 as [u|e|].
    + destruct H3 as [H3 (done & L3 & Hd)]. pose proof L3 as ((_ & _ & _ & M4 & _) & C3 & _). rewrite C3 in M4. destruct (calmly_coalesce _ _ _ M4 E) as [K1 K2]. split; [|split].
      * intros ->. congruence.
      * intros _ Hs _. destruct H3. now apply bad_stray.
      * intros _ k. unfold advertised. rewrite K1, (loads_done _ _ L3). destruct (names_in_spec (pieces_dir cfg) f Nd) as [_ Hn]. split.
        -- intros [_ H]. split; [reflexivity|]. apply Hd in H as [[]|(nm & Hnm & S)]. exists nm. split; [now apply Hn|now apply scan_starts].
        -- intros (_ & nm & Fn & S). apply Hn in Fn. apply scan_starts in S. split; [|apply Hd; right; eauto].
           assert (0 <= k < n \/ ~ 0 <= k < n) as [R|R] by lia; [exact R|]. destruct H3. apply in_split in Fn as (a & b & ->). exists a, nm, b, k. auto.
    + injection E as <- <-. split; [discriminate|]. split; [|discriminate]. intros _ _ Nf. exfalso. destruct H3 as [t Ht]; [|congruence].
      intros nm Hnm. rewrite (piece_dir_eq cfg ok), T1. now apply (names_in_spec (pieces_dir cfg) f Nd).
    + injection E as <- <-. split; [|split; [reflexivity|discriminate]]. intros _. split; [reflexivity|]. now apply bad_stray.
Qed.
Lemma load_panic f tick w' : NoDup (keys f) -> load cfg env (booted cfg f tick) = (w', Panic) ->
  lookup (target cfg) f = None /\ lookup (pieces_dir cfg) f = Some NDir /\ exists nm, stray cfg f nm.
Proof using ok sha1. intros Nd E. pose proof (load_cases _ _ _ _ Nd E) as H. destruct (lookup (target cfg) f); [destruct H as [[H _]|[H _]]; discriminate|]. split; [reflexivity|]. now apply H. Qed.
Lemma load_stray f tick nm : NoDup (keys f) -> (forall t, ch_fail (env t) = false) -> lookup (target cfg) f = None -> lookup (pieces_dir cfg) f = Some NDir -> stray cfg f nm ->
  snd (load cfg env (booted cfg f tick)) = Panic.
Proof using ok sha1. intros Nd Nf Et Dd Hs. destruct (load _ _ _) as [w' r] eqn:E. pose proof (load_cases _ _ _ _ Nd E) as H. rewrite Et in H. apply H; eauto. Qed.
Lemma load_trusts f tick w' r : NoDup (keys f) -> lookup (target cfg) f <> None -> load cfg env (booted cfg f tick) = (w', r) ->
  (r = Err EIO /\ exists t, ch_fail (env t) = true) \/ (r = Ok tt /\ w_fs w' = f /\ forall k, member (advertised w') k <-> 0 <= k < n).
Proof using ok sha1. intros Nd Et E. pose proof (load_cases _ _ _ _ Nd E) as H. destruct (lookup (target cfg) f); [exact H|congruence]. Qed.
Lemma load_named f tick w' : NoDup (keys f) -> lookup (target cfg) f = None -> load cfg env (booted cfg f tick) = (w', Ok tt) ->
  forall k, member (advertised w') k <-> lookup (pieces_dir cfg) f = Some NDir /\ exists nm, found cfg f nm /\ starts_like nm k.
Proof using ok sha1. intros Nd Et E. pose proof (load_cases _ _ _ _ Nd E) as H. rewrite Et in H. now apply H. Qed.
End Found.
