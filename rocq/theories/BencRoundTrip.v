(** C01: decoding undoes encoding. *)
From Verif Require Import GoBase Strconv BencTypes BencFields BencEncode BencDecode BencSpec BencEncSpec BencFieldSpec BencRoundSpec GoBaseProofs StrconvProofs BencSpecProofs
  BencConsumeProofs BencDecodeEqs BencDecodeProofs BencFieldsProofs BencResolveProofs BencFuelProofs BencEncodeProofs BencDepthProofs BencFrameProofs BencApiProofs BencRoundProofs.
From Coq Require Import Permutation.

Section Trip.
Variable C : customs.

(** *** Fuel monotonicity of the loops *)
Lemma slice_mono n m et fl pre post inp off v rest off' : (n <= m)%nat ->
  decode_slice C n et fl pre post inp off = DOk v rest off' -> decode_slice C m et fl pre post inp off = DOk v rest off'.
Proof. intros L H. induction L as [|m L IH]; [exact H|]. apply (decode_mono_mut C m); [exact IH|discriminate]. Qed.
Lemma array_mono n m et fl pre post inp off v rest off' : (n <= m)%nat ->
  decode_array C n et fl pre post inp off = DOk v rest off' -> decode_array C m et fl pre post inp off = DOk v rest off'.
Proof. intros L H. induction L as [|m L IH]; [exact H|]. apply (decode_mono_mut C m); [exact IH|discriminate]. Qed.
Lemma map_mono n m et fl m0 lk inp off v rest off' : (n <= m)%nat ->
  decode_map C n et fl m0 lk inp off = DOk v rest off' -> decode_map C m et fl m0 lk inp off = DOk v rest off'.
Proof. intros L H. induction L as [|m L IH]; [exact H|]. apply (decode_mono_mut C m); [exact IH|discriminate]. Qed.
Lemma struct_mono n m t fl v0 lk inp off v rest off' : (n <= m)%nat ->
  decode_struct C n t fl v0 lk inp off = DOk v rest off' -> decode_struct C m t fl v0 lk inp off = DOk v rest off'.
Proof. intros L H. induction L as [|m L IH]; [exact H|]. apply (decode_mono_mut C m); [exact IH|discriminate]. Qed.
Lemma dec_mono n m t fl old inp off v rest off' : (n <= m)%nat ->
  decode C n t fl old inp off = DOk v rest off' -> decode C m t fl old inp off = DOk v rest off'.
Proof. intros L H. eapply decode_mono; eauto. discriminate. Qed.

(** [t] decodes from [inp] into its zero value. *)
Definition decs (t : gty) (fl : flags) (old : gval) (tx : bytes) (v' : gval) : Prop :=
  forall rest off, exists n, decode C n t fl old (tx ++ rest) off = DOk v' rest (off + zlen tx).

Lemma decs_head t fl old tx v' : decs t fl old tx v' -> exists c tx', tx = c :: tx' /\ beqb c "e" = false.
Proof.
  intros H. destruct (H [] 0) as (n & Hn). rewrite app_nil_r in Hn. apply decode_sound in Hn as (bv & out & L & E & _).
  rewrite app_nil_r in E. subst out. apply gram_first_not_e in L as (c & t' & -> & N). exists c, t'. split; [reflexivity|].
  destruct (beqb c "e") eqn:X; [apply beqb_eq in X; contradiction|reflexivity].
Qed.

Lemma decs_slice et fl l' ts : settable fl = true -> Forall2 (fun tx v' => decs et (fl_elem fl) (zero et) tx v') ts l' ->
  forall pre rest off, exists n, decode_slice C n et fl pre [] (concat ts ++ "e"%byte :: rest) off = DOk (VSlice (pre ++ l')) rest (off + zlen (concat ts) + 1).
Proof.
  intros Sf F. induction F as [|tx v' ts l' D F IH]; intros pre rest off.
  - exists 1%nat. rewrite decode_slice_S. cbn [concat app]. change (beqb "e" "e") with true. cbn iota. rewrite zlen_nil, Z.add_0_r. reflexivity.
  - destruct (D (concat ts ++ "e"%byte :: rest) off) as (n1 & H1).
    destruct (IH (pre ++ [v']) rest (off + zlen tx)) as (n2 & H2).
    exists (S (Nat.max n1 n2)). rewrite decode_slice_S. cbn [concat]. rewrite <- app_assoc.
    destruct (decs_head _ _ _ _ _ D) as (c & tx' & -> & Ne). cbn [app]. rewrite Ne, Sf.
    cbn [app] in H1. rewrite (dec_mono n1 (Nat.max n1 n2) _ _ _ _ _ _ _ _ ltac:(lia) H1).
    rewrite (slice_mono n2 (Nat.max n1 n2) _ _ _ _ _ _ _ _ _ ltac:(lia) H2). rewrite <- app_assoc. cbn [app]. f_equal.
    rewrite !zlen_cons, !zlen_app. lia.
Qed.
Lemma decs_array et fl l' ts : Forall2 (fun tx v' => decs et fl (zero et) tx v') ts l' ->
  forall pre rest off, exists n, decode_array C n et fl pre (repeat (zero et) (List.length l')) (concat ts ++ "e"%byte :: rest) off = DOk (VSlice (pre ++ l')) rest (off + zlen (concat ts) + 1).
Proof.
  intros F. induction F as [|tx v' ts l' D F IH]; intros pre rest off.
  - exists 1%nat. rewrite decode_array_S. cbn [concat app]. change (beqb "e" "e") with true. cbn iota. rewrite zlen_nil, Z.add_0_r. reflexivity.
  - destruct (D (concat ts ++ "e"%byte :: rest) off) as (n1 & H1).
    destruct (IH (pre ++ [v']) rest (off + zlen tx)) as (n2 & H2).
    exists (S (Nat.max n1 n2)). rewrite decode_array_S. cbn [concat List.length repeat]. rewrite <- app_assoc.
    destruct (decs_head _ _ _ _ _ D) as (c & tx' & -> & Ne). cbn [app]. rewrite Ne.
    cbn [app] in H1. rewrite (dec_mono n1 (Nat.max n1 n2) _ _ _ _ _ _ _ _ ltac:(lia) H1).
    rewrite (array_mono n2 (Nat.max n1 n2) _ _ _ _ _ _ _ _ _ ltac:(lia) H2). rewrite <- app_assoc. cbn [app]. f_equal.
    rewrite !zlen_cons, !zlen_app. lia.
Qed.

(** Decoding through a fresh non-nil pointer. *)
Lemma decs_ptr t tx v' fl old : is_ptr t = false -> decs t (fl_elem fl) old tx v' -> fl_ro fl = false -> decs (TPtr t) fl (VPtr old) tx (VPtr v').
Proof.
  intros P D Ro rest off. destruct (D rest off) as (n & H). exists (S n). rewrite decode_S. cbn [is_ptr under negb andb].
  destruct (impl m_unmarsh (TPtr t)) as [id|] eqn:I.
  - destruct t as [| | | | | | | | | | | |i ms u]; try discriminate. cbn [impl] in I.
    destruct n as [|n]; [discriminate|]. rewrite decode_S in H. rewrite P in H. cbn [negb andb fl_addr fl_elem ptr_impl] in H.
    destruct (m_unmarsh ms); [|discriminate]. injection I as <-. unfold dec_unmarshaler in *. cbn [fl_ro fl_elem] in H. rewrite Ro in *.
    destruct (consume n (tx ++ rest) off) as [o r1 off1| | |] eqn:R; try discriminate.
    rewrite (consume_mono n (S n) _ _ _ ltac:(lia) R) by discriminate.
    destruct (c_unmarsh C i (Some old) o); try discriminate. injection H as -> -> ->. reflexivity.
  - rewrite H. reflexivity.
Qed.

Lemma lax_str_enc k : len_fits k -> lax_str k (enc_str k) /\ starts_with_digit (enc_str k).
Proof. intros L. apply str_text_lax; [exact L|apply enc_str_text]. Qed.
Lemma digit_not_e c : is_digit c = true -> beqb c "e" = false.
Proof. intros D. destruct (beqb c "e") eqn:X; [apply beqb_eq in X; subst; discriminate|reflexivity]. Qed.

Lemma decs_map et fl m' ts : fl_ro fl = false ->
  Forall2 (fun tx p => len_fits (fst p) /\ decs (TPtr et) fl_root_val (VPtr (zero et)) tx (VPtr (snd p))) ts m' ->
  forall m0 lk rest off, ascending (lk :: map fst m') -> (forall k, In k (map fst m') -> ~ In k (map fst m0)) ->
  exists n, decode_map C n et fl m0 lk (dtext (map enc_str (map fst m')) ts ++ "e"%byte :: rest) off
     = DOk (VMap (m0 ++ m')) rest (off + zlen (dtext (map enc_str (map fst m')) ts) + 1).
Proof.
  intros Ro F. induction F as [|tx [k v'] ts m' [Lk D] F IH]; intros m0 lk rest off A N.
  - exists 1%nat. rewrite decode_map_S. cbn. rewrite Z.add_0_r, app_nil_r. reflexivity.
  - cbn [map fst snd] in *. unfold dtext. cbn [combine map concat fst snd]. fold (dtext (map enc_str (map fst m')) ts).
    destruct (lax_str_enc k Lk) as [Ls (c & kt & Ek & Dg)].
    set (tail := dtext (map enc_str (map fst m')) ts ++ "e"%byte :: rest).
    destruct (read_str_lax k (enc_str k) (tx ++ tail) off Ls) as (ls & _ & R).
    destruct (D tail (off + zlen (enc_str k))) as (n1 & H1).
    apply Sorted.StronglySorted_inv in A as [A1 A2]. inversion A2 as [|? ? Lt _]; subst.
    destruct (IH (m0 ++ [(k, v')]) k rest (off + zlen (enc_str k) + zlen tx)) as (n2 & H2).
    { exact A1. }
    { intros k' Hk'. rewrite map_app, in_app_iff. intros [Hi|[Hi|[]]]; [exact (N k' (or_intror Hk') Hi)|]. cbn in Hi. subst k'.
      apply ascending_nodup in A1. inversion A1; auto. }
    exists (S (Nat.max n1 n2)). rewrite decode_map_S. rewrite <- !app_assoc. fold tail. rewrite Ek in *. cbn [app] in *.
    rewrite (digit_not_e c Dg). rewrite R, Lt. cbn [negb].
    rewrite (dec_mono n1 (Nat.max n1 n2) _ _ _ _ _ _ _ _ ltac:(lia) H1). rewrite Ro.
    rewrite assoc_set_fresh by (apply N; left; reflexivity).
    unfold tail. rewrite (map_mono n2 (Nat.max n1 n2) _ _ _ _ _ _ _ _ _ ltac:(lia) H2). rewrite <- app_assoc. cbn [app]. f_equal.
    rewrite !zlen_cons, !zlen_app. lia.
Qed.

(** *** Structs *)
Lemma path_get_one i t fl l a ft x : nth_error (struct_fields t) i = Some (a, ft) -> nth_error l i = Some x ->
  path_get [i] t fl (VStruct l) = match under ft, x with
    | TPtr t', VNil => if settable (fl_field fl a) then Some (t', fl_elem (fl_field fl a), zero t') else None
    | TPtr t', VPtr x' => Some (t', fl_elem (fl_field fl a), x')
    | _, _ => Some (ft, fl_field fl a, x) end.
Proof. intros H1 H2. cbn [path_get]. rewrite H1, H2. destruct (under ft), x; reflexivity. Qed.
Lemma path_set_one i t l a ft x new : nth_error (struct_fields t) i = Some (a, ft) -> nth_error l i = Some x ->
  path_set [i] t (VStruct l) new = VStruct (list_set i (match under ft, x with
    | TPtr t', VNil => VPtr new
    | TPtr t', VPtr x' => VPtr new
    | _, _ => new end) l).
Proof. intros H1 H2. cbn [path_set]. rewrite H1, H2. destruct (under ft), x; reflexivity. Qed.

(** The loop writes the value [y] of each entry (field, text, value) to its field. *)
Lemma decs_struct t fl fts : forall l0 lk rest off,
  ascending (lk :: map f_key (map (fun e => fst (fst e)) fts)) ->
  NoDup (map (fun e => f_index (fst (fst e))) fts) ->
  Forall (fun e => let '(f, tx, y) := e in
     exists i a ft x0, f_index f = [i] /\ assoc (f_key f) (key_to_field t) = Some f /\ len_fits (f_key f) /\
        nth_error (struct_fields t) i = Some (a, ft) /\ nth_error l0 i = Some x0 /\ fa_exp a = true /\
        (is_ptr ft = false /\ decs ft (fl_field fl a) x0 tx y \/
         exists t' y', ft = TPtr t' /\ x0 = VNil /\ y = VPtr y' /\ decs t' (fl_elem (fl_field fl a)) (zero t') tx y')) fts ->
  fl_addr fl = true ->
  exists n l1, decode_struct C n t fl (VStruct l0) lk (dtext (map enc_str (map f_key (map (fun e => fst (fst e)) fts))) (map (fun e => snd (fst e)) fts) ++ "e"%byte :: rest) off
    = DOk (VStruct l1) rest (off + zlen (dtext (map enc_str (map f_key (map (fun e => fst (fst e)) fts))) (map (fun e => snd (fst e)) fts)) + 1) /\
    List.length l1 = List.length l0 /\
    forall i, nth_error l1 i = match find (fun e => match f_index (fst (fst e)) with [j] => Nat.eqb i j | _ => false end) fts with
                               | Some e => Some (snd e) | None => nth_error l0 i end.
Proof.
  induction fts as [|[[f tx] y] fts IH]; intros l0 lk rest off A ND F Ad.
  - exists 1%nat, l0. rewrite decode_struct_S. cbn. rewrite Z.add_0_r. auto.
  - inversion F as [|? ? Hd F']; subst. destruct Hd as (i & a & ft & x0 & If & As & Lk & Nf & Nx & Ex & Cs). cbn [map fst snd] in *.
    unfold dtext. cbn [combine map concat fst snd].
    fold (dtext (map enc_str (map f_key (map (fun e : finfo * bytes * gval => fst (fst e)) fts))) (map (fun e : finfo * bytes * gval => snd (fst e)) fts)).
    set (tail := dtext (map enc_str (map f_key (map (fun e : finfo * bytes * gval => fst (fst e)) fts))) (map (fun e : finfo * bytes * gval => snd (fst e)) fts) ++ "e"%byte :: rest).
    destruct (lax_str_enc (f_key f) Lk) as [Ls (c & kt & Ek & Dg)].
    destruct (read_str_lax (f_key f) (enc_str (f_key f)) (tx ++ tail) off Ls) as (ls & _ & R).
    apply Sorted.StronglySorted_inv in A as [A1 A2]. inversion A2 as [|? ? Lt _]; subst. inversion ND as [|? ? Ni ND']; subst.
    (* the destination *)
    assert (exists ft' ffl y0 y', path_get [i] t fl (VStruct l0) = Some (ft', ffl, y0) /\ decs ft' ffl y0 tx y' /\
              path_set [i] t (VStruct l0) y' = VStruct (list_set i y l0)) as (ft' & ffl & y0 & y' & PG & D & PS).
    { rewrite (path_get_one _ _ _ _ _ _ _ Nf Nx). destruct Cs as [[P D]|(t' & y' & -> & -> & -> & D)].
      - exists ft, (fl_field fl a), x0, y. rewrite (path_set_one _ _ _ _ _ _ _ Nf Nx). unfold is_ptr in P. destruct (under ft); try discriminate; auto.
      - exists t', (fl_elem (fl_field fl a)), (zero t'), y'. rewrite (path_set_one _ _ _ _ _ _ _ Nf Nx). cbn [under].
        unfold settable, fl_field in *. cbn [fl_addr fl_ro fl_elem] in *. rewrite Ad, Ex in *. auto. }
    destruct (D tail (off + zlen (enc_str (f_key f)))) as (n1 & H1).
    destruct (IH (list_set i y l0) (f_key f) rest (off + zlen (enc_str (f_key f)) + zlen tx) A1 ND') as (n2 & l1 & H2 & L2 & N2).
    { rewrite Forall_forall in *. intros [[g tg] yg] Hg. specialize (F' _ Hg). destruct F' as (j & b & gt & z0 & Ig & Ag & Lg & Ng & Nz & Eb & Cg).
      exists j, b, gt, z0. repeat split; auto. rewrite list_set_nth_neq; [exact Nz|]. intros <-. apply Ni. rewrite If.
      apply in_map_iff. exists (g, tg, yg). auto. }
    { exact Ad. }
    exists (S (Nat.max n1 n2)), l1. split; [|split].
    + rewrite decode_struct_S. rewrite <- !app_assoc. fold tail. rewrite Ek in *. cbn [app] in *.
      rewrite (digit_not_e c Dg). rewrite R, Lt, As, If, PG. cbn [negb].
      rewrite (dec_mono n1 (Nat.max n1 n2) _ _ _ _ _ _ _ _ ltac:(lia) H1). rewrite PS.
      unfold tail. rewrite (struct_mono n2 (Nat.max n1 n2) _ _ _ _ _ _ _ _ _ ltac:(lia) H2). f_equal.
      rewrite !zlen_cons, !zlen_app. lia.
    + rewrite L2. apply list_set_length.
    + intros j. rewrite N2. cbn [find fst snd]. rewrite If. destruct (Nat.eqb_spec j i) as [->|Nj].
      * assert (find (fun e : finfo * bytes * gval => match f_index (fst (fst e)) with [j] => Nat.eqb i j | _ => false end) fts = None) as ->.
        { destruct (find _ fts) as [e|] eqn:Fd; [|reflexivity]. apply find_some in Fd as [Hi He].
          exfalso. apply Ni. rewrite If. apply in_map_iff. exists e. split; [|exact Hi]. destruct (f_index (fst (fst e))) as [|j [|? ?]]; try discriminate.
          apply Nat.eqb_eq in He. subst. reflexivity. }
        rewrite list_set_nth_eq; [reflexivity|]. apply nth_error_Some. congruence.
      * destruct (find _ fts); [reflexivity|]. rewrite list_set_nth_neq by auto. reflexivity.
Qed.

(** *** The main induction *)
Lemma forall2_length {A B} (R : A -> B -> Prop) l l' : Forall2 R l l' -> List.length l = List.length l'.
Proof. induction 1; cbn; congruence. Qed.
Lemma nth_error_ext' {A} (l l' : list A) : (forall i, nth_error l i = nth_error l' i) -> l = l'.
Proof.
  revert l'. induction l as [|x l IH]; intros [|y l'] H; [reflexivity|specialize (H O); discriminate|specialize (H O); discriminate|].
  pose proof (H O) as H0. injection H0 as ->. f_equal. apply IH. intros i. exact (H (S i)).
Qed.
Lemma forall2_nth {A B} (R : A -> B -> Prop) l l' : List.length l = List.length l' ->
  (forall i x y, nth_error l i = Some x -> nth_error l' i = Some y -> R x y) -> Forall2 R l l'.
Proof.
  revert l'. induction l as [|x l IH]; intros [|y l'] L H; try discriminate; constructor.
  - apply (H O); reflexivity.
  - apply IH; [cbn in L; lia|]. intros i. exact (H (S i)).
Qed.
Lemma zero_under t : zero t = zero (under t).
Proof. destruct t; reflexivity. Qed.
Lemma no_unmarshaler t fl : uses_unmarshaler t = false -> is_ptr t = false ->
  (if negb (is_ptr t) && fl_addr fl then ptr_impl m_unmarsh t else None) = None /\ impl m_unmarsh t = None.
Proof.
  intros U P. rewrite P. cbn [negb andb]. destruct t; try discriminate; cbn [ptr_impl impl]; try (destruct (fl_addr fl); auto).
  all: cbn in U; destruct (m_unmarsh ms); try discriminate; auto.
Qed.
Lemma survives_not_ptr t fl v : survives C t fl v -> is_ptr t = false.
Proof. unfold is_ptr. destruct 1; try (rewrite H1; reflexivity). all: cbn [under]; unfold is_ptr in H1; destruct u; auto; discriminate. Qed.

(** What encoding a pointer does. *)
Lemma encode_ptr n t fl d x out : survives C t (fl_elem fl) x -> encode C n (TPtr t) fl d (VPtr x) = EOk out ->
  exists m, (m <= n)%nat /\ encode C m t (fl_elem fl) d x = EOk out.
Proof.
  intros Sv. destruct n as [|n]; [discriminate|]. cbn [encode is_ptr under negb andb].
  destruct (impl m_marsh (TPtr t)) as [id|] eqn:I; [|intros H; exists n; split; [lia|exact H]].
  intros H. exists (S n). split; [lia|]. destruct t; try discriminate. cbn [impl] in I. destruct (m_marsh ms) as [r|] eqn:M; [|discriminate]. injection I as <-.
  pose proof (survives_not_ptr _ _ _ Sv) as P. cbn [encode]. rewrite P. cbn [negb andb fl_addr fl_elem ptr_impl]. rewrite M.
  unfold enc_marshaler in *. cbn [fl_ro fl_elem]. exact H.
Qed.

Lemma leaf_one t f : kind_struct t = true -> (forall a ft, In (a, ft) (struct_fields t) -> field_embed a ft = false) ->
  In f (sorted_fields t) -> exists i a ft, f_index f = [i] /\ nth_error (struct_fields t) i = Some (a, ft) /\ f_key f = field_key a.
Proof.
  intros K E H. apply sorted_fields_in in H as [A _]. apply ktf_assoc in A as [_ (a & ft & L & Kf & _)].
  destruct (f_index f) as [|i p] eqn:I; [discriminate|]. apply leaf_at_step in L as (a0 & ft0 & N & _ & Cs).
  rewrite (kind_struct_deref t K) in N. destruct Cs as [(-> & _ & -> & ->)|(_ & Em & _)]; [eauto 6|].
  apply nth_error_In in N. rewrite (E _ _ N) in Em. discriminate.
Qed.

Lemma index_nodup t : NoDup (map f_index (sorted_fields t)).
Proof.
  pose proof (ascending_nodup _ (sorted_fields_ascending t)) as ND.
  assert (forall f g, In f (sorted_fields t) -> In g (sorted_fields t) -> f_index f = f_index g -> f_key f = f_key g) as Inj.
  { intros f g Hf Hg E. apply sorted_fields_in in Hf as [Af _]. apply sorted_fields_in in Hg as [Ag _].
    apply ktf_assoc in Af as [_ (a & ft & L & Kf & _)]. apply ktf_assoc in Ag as [_ (b & gt & L' & Kg & _)]. congruence. }
  induction (sorted_fields t) as [|f s IH]; cbn in *; [constructor|]. inversion ND; subst. constructor.
  - rewrite in_map_iff. intros (g & E & Hg). apply H1. apply in_map_iff. exists g. split; [|exact Hg]. apply Inj; auto.
  - apply IH; auto.
Qed.

Lemma in_map_index_inj t f g : In f (sorted_fields t) -> In g (sorted_fields t) -> f_index f = f_index g -> f = g.
Proof.
  intros Hf Hg E. apply sorted_fields_in in Hf as [Af _]. apply sorted_fields_in in Hg as [Ag _].
  pose proof Af as Af'. pose proof Ag as Ag'.
  apply ktf_assoc in Af' as [_ (a & ft & L & Kf & _)]. apply ktf_assoc in Ag' as [_ (b & gt & L' & Kg & _)].
  rewrite E in L. assert (a = b) by congruence. subst b. congruence.
Qed.

Lemma ascending_nil_cons ks : ascending ks -> (forall k, In k ks -> k <> []) -> ascending ([] :: ks).
Proof. intros A H. constructor; [exact A|]. rewrite Forall_forall. intros k Hk. specialize (H k Hk). destruct k; [congruence|reflexivity]. Qed.

Lemma encode_decs n : forall t fl d v out, survives C t fl v -> encode C n t fl d v = EOk out ->
  forall dfl, settable dfl = true -> exists v', decs t dfl (zero t) out v' /\ same_data v v'.
Proof.
  induction n as [n IH] using lt_wf_ind. intros t fl d v out Sv He dfl Sf.
  destruct n as [|n]; [discriminate|]. assert (fl_addr dfl = true /\ fl_ro dfl = false) as [Ad Ro].
  { unfold settable in Sf. apply andb_prop in Sf as [? Sf]. split; [assumption|]. destruct (fl_ro dfl); [discriminate|reflexivity]. }
  pose proof (survives_not_ptr _ _ _ Sv) as NP.
  destruct Sv as [id ms u fl v UM UU P Rf HB|id ms u fl v UM UU P Rf HB|t fl s UM UU U L|t fl w z UM UU U L|t fl w z UM UU U L|t fl et b UM UU U K8 L
                 |t fl et l UM UU U K8 F|t fl k et l UM UU U Lk F|t fl kt et m UM UU U Ks ND F|t fl dt x UM UU U AT Sx
                 |t fl nm fs l UM UU U Ll FE FC].
  { (* custom *)
    apply uses_marshaler_call in He as (id' & M & He); [|exact UM]. injection M as <-. cbn [marsh_recv] in He.
    destruct HB as (b' & v' & Hb' & (bv & Lx & _) & Hu & Sd). assert (b' = out) by congruence. subst b'. exists v'. split; [|exact Sd].
    intros rest off. exists (2 * List.length out + 2)%nat. cbn [zero].
    rewrite (custom_exact C id ms u (zero u) out bv rest _ dfl off); auto; [rewrite Hu; reflexivity|].
    cbn in UU. destruct (m_unmarsh ms); [discriminate|discriminate]. }
  { (* unmarshaler only *)
    apply (encode_grow _ _ (S (Nat.max n (vdepth v)))) in He; [|lia].
    destruct (HB (S (Nat.max n (vdepth v))) d ltac:(lia)) as [(b & d' & Hb)|(b & bv & v' & Hb & Lx & Hu & Sd)]; [congruence|].
      assert (b = out) by congruence. subst b. exists v'. split; [|exact Sd].
      intros rest off. exists (2 * List.length out + 2)%nat. cbn [zero].
      rewrite (custom_exact C id ms u (zero u) out bv rest _ dfl off); auto; [rewrite Hu; reflexivity|].
      cbn in UU. destruct (m_unmarsh ms); [discriminate|discriminate]. }
  all: cbn [encode] in He; destruct (uses_marshaler_false t fl UM) as [E1 E2]; rewrite E1, E2, U in He; clear E1 E2.
  all: destruct (no_unmarshaler t dfl UU NP) as [D1 D2].
  - (* string *) injection He as <-. exists (VStr s). split; [|constructor]. intros rest off. exists 1%nat. rewrite decode_S, D1, D2, U.
    destruct (lax_str_enc s L) as [Ls _]. destruct (read_str_lax s _ rest off Ls) as (ls & _ & ->). rewrite Sf. reflexivity.
  - injection He as <-. exists (VInt z). split; [|constructor]. intros rest off. exists 1%nat. rewrite decode_S, D1, D2, U.
    assert (is_int64 z = true) as I64. { unfold int_fits in L. unfold is_int64, min_int64, max_int64. destruct w; cbn [iw_bits] in L; lia. }
    pose proof (proj2 (dec_text_format z (format_Z z)) eq_refl) as DT.
    pose proof (dec_text_go_int z _ DT I64) as GI. unfold enc_int.
    rewrite (read_int_lax parse_int (format_Z z) rest z off); [| |apply go_int_parse; exact GI|eapply dec_text_not_padded; eauto].
    2: { apply go_int_chars in GI. tauto. }
    rewrite Sf. rewrite wrap_s_small; [reflexivity| |exact L]. destruct w; cbn; lia.
  - injection He as <-. exists (VUint z). split; [|constructor]. intros rest off. exists 1%nat. rewrite decode_S, D1, D2, U.
    pose proof (proj2 (dec_text_format z (format_Z z)) eq_refl) as DT.
    assert (go_uint z (format_Z z)) as GU.
    { unfold uint_fits in L. destruct DT as [(_ & Cn & Dv)|(Hz & _)]; [|lia]. destruct (format_Z z) as [|c s]; [discriminate|].
      split; [discriminate|]. split; [|split; [auto|destruct w; cbn [iw_bits] in L; lia]].
      cbn [canon_nat] in Cn. destruct s; cbn [forallb]; [rewrite Cn; reflexivity|].
      apply andb_prop in Cn as [Cn1 Cn2]. apply andb_prop in Cn1 as [_ Cn1]. rewrite Cn1. exact Cn2. }
    unfold enc_int.
    rewrite (read_int_lax parse_uint (format_Z z) rest z off); [| |apply go_uint_parse; exact GU|eapply dec_text_not_padded; eauto].
    2: { apply go_uint_chars in GU. tauto. }
    rewrite Sf. rewrite wrap_u_small; [reflexivity|exact L].
  - rewrite K8 in He. injection He as <-. exists (VBytes b). split; [|constructor]. intros rest off. exists 1%nat. rewrite decode_S, D1, D2, U, K8.
    destruct (lax_str_enc b L) as [Ls _]. destruct (read_str_lax b _ rest off Ls) as (ls & _ & ->). rewrite Sf. reflexivity.
  - (* slice *) rewrite K8 in He. destruct (ptr_depth_limit <? S d)%nat; [discriminate|].
    apply ewrite_ok in He as (b & He & ->). apply eseq_ok in He as (b1 & b2 & He & [= <-] & ->).
    apply enc_list_ok in He as (ts & Ft & ->).
    assert (exists l', Forall2 (fun tx v' => decs et (fl_elem dfl) (zero et) tx v') ts l' /\ Forall2 same_data l l') as (l' & Fd & Fs).
    { clear - F Ft IH Ro. revert F. induction Ft as [|x tx l ts Hx Ft IHF]; intros F; [exists []; split; constructor|]. inversion F; subst.
      destruct IHF as (l' & ? & ?); auto. destruct (IH n ltac:(lia) _ _ _ _ _ H1 Hx (fl_elem dfl)) as (v' & ? & ?).
      { unfold settable. cbn. rewrite Ro. reflexivity. } exists (v' :: l'). split; constructor; auto. }
    exists (VSlice l'). split; [|constructor; exact Fs]. intros rest off.
    destruct (decs_slice et dfl l' ts Sf Fd [] rest (off + 1)) as (m & Hm). exists (S m). rewrite decode_S, D1, D2, U, K8.
    cbn [app]. change (negb (beqb "l" "l")) with false. cbn iota. rewrite (zero_under t), U. cbn [zero]. rewrite Sf.
    rewrite <- app_assoc. cbn [app]. rewrite Hm. cbn [app]. f_equal. rewrite zlen_cons, zlen_app, zlen_e. lia.
  - (* array *) destruct (ptr_depth_limit <? S d)%nat; [discriminate|].
    apply ewrite_ok in He as (b & He & ->). apply eseq_ok in He as (b1 & b2 & He & [= <-] & ->).
    apply enc_list_ok in He as (ts & Ft & ->).
    assert (exists l', Forall2 (fun tx v' => decs et dfl (zero et) tx v') ts l' /\ Forall2 same_data l l') as (l' & Fd & Fs).
    { clear - F Ft IH Sf. revert F. induction Ft as [|x tx l ts Hx Ft IHF]; intros F; [exists []; split; constructor|]. inversion F; subst.
      destruct IHF as (l' & ? & ?); auto. destruct (IH n ltac:(lia) _ _ _ _ _ H1 Hx dfl Sf) as (v' & ? & ?).
      exists (v' :: l'). split; constructor; auto. }
    exists (VSlice l'). split; [|constructor; exact Fs]. intros rest off.
    destruct (decs_array et dfl l' ts Fd [] rest (off + 1)) as (m & Hm). exists (S m). rewrite decode_S, D1, D2, U.
    cbn [app]. change (negb (beqb "l" "l")) with false. cbn iota. rewrite (zero_under t), U. cbn [zero].
    rewrite <- (forall2_length _ _ _ Fs), Lk in Hm.
    rewrite <- app_assoc. cbn [app]. rewrite Hm. cbn [app]. f_equal. rewrite zlen_cons, zlen_app, zlen_e. lia.
  - (* map *) rewrite Ks in He. cbn [negb] in He. destruct (ptr_depth_limit <? S d)%nat; [discriminate|].
    apply ewrite_ok in He as (b & He & ->). apply eseq_ok in He as (b1 & b2 & He & [= <-] & ->).
    apply enc_map_ok in He as (ts & Ft & ->).
    assert (Forall (fun p => fst p <> [] /\ len_fits (fst p) /\ survives C et (fl_noaddr fl) (snd p)) (sort_map m)) as F'.
    { rewrite Forall_forall in *. intros p Hp. apply F. eapply Permutation_in; [apply sort_by_perm|exact Hp]. }
    assert (exists m', map fst m' = map fst (sort_map m) /\
        Forall2 (fun tx p => len_fits (fst p) /\ decs (TPtr et) fl_root_val (VPtr (zero et)) tx (VPtr (snd p))) ts m' /\
        Forall2 (fun p q => fst p = fst q /\ same_data (snd p) (snd q)) (sort_map m) m') as (m' & Ek & Fd & Fs).
    { clear - F' Ft IH. induction Ft as [|[k x] tx sm ts Hx Ft IHF]; [exists []; repeat split; constructor|]. inversion F' as [|? ? (N & Lf & Sx) F'']; subst.
      destruct (IHF F'') as (m' & E & ? & ?). destruct (IH n ltac:(lia) _ _ _ _ _ Sx Hx fl_new eq_refl) as (v' & Dv & Sd).
      exists ((k, v') :: m'). cbn [map fst snd]. rewrite E. repeat split; constructor; auto. split; [exact Lf|].
      apply decs_ptr; [eapply survives_not_ptr; eauto|exact Dv|reflexivity]. }
    exists (VMap m'). split.
    + intros rest off. destruct (decs_map et dfl m' ts Ro Fd [] [] rest (off + 1)) as (q & Hq).
      * rewrite Ek. apply ascending_nil_cons; [apply sort_by_ascending; exact ND|]. intros k Hk. apply in_map_iff in Hk as (p & <- & Hp).
        rewrite Forall_forall in F'. apply F' in Hp. tauto.
      * cbn. tauto.
      * exists (S q). rewrite decode_S, D1, D2, U. cbn [app]. change (negb (beqb "d" "d")) with false. cbn iota. rewrite Ks. cbn [negb].
        rewrite (zero_under t), U. cbn [zero]. rewrite Sf. rewrite Ek in Hq. rewrite <- app_assoc. cbn [app] in *. rewrite Hq. f_equal.
        rewrite zlen_cons, zlen_app, zlen_e. lia.
    + eapply sd_map; [exact ND|apply Permutation_sym, sort_by_perm|exact Fs].
  - (* any *)
    destruct (IH n ltac:(lia) _ _ _ _ _ Sx He fl_new eq_refl) as (x' & Dx & Sd). exists (VIface dt x'). split; [|constructor; exact Sd].
    assert (exists c tx, out = c :: tx /\ (if beqb c "i"%byte then Some (TInt WInt) else if beqb c "l"%byte then Some any_slice
        else if beqb c "d"%byte then Some any_map else if is_digit c then Some TStr else None) = Some dt) as (c & tx & -> & Hc).
    { destruct n as [|n]; [discriminate|]. cbn [encode] in He.
      destruct dt as [|w|w| | |et|k et|kt et|nm fs| | |t'|i ms t']; try discriminate; cbn [is_ptr under negb andb impl fl_addr fl_noaddr] in He.
      - destruct x; try discriminate. injection He as <-. cbn in Sx. inversion Sx; subst; try discriminate.
        destruct (lax_str_enc s) as [_ (c & kt & -> & Dg)]; [assumption|]. exists c, kt. split; [reflexivity|]. rewrite Dg.
        destruct (beqb c "i") eqn:X1; [apply beqb_eq in X1; subst; discriminate|].
        destruct (beqb c "l") eqn:X2; [apply beqb_eq in X2; subst; discriminate|].
        destruct (beqb c "d") eqn:X3; [apply beqb_eq in X3; subst; discriminate|]. reflexivity.
      - destruct w; try discriminate. destruct x; try discriminate. injection He as <-. unfold enc_int. eexists; eexists; split; reflexivity.
      - destruct et; try discriminate. inversion Sx; subst; try discriminate.
        all: cbn [kind_uint8 under] in He. destruct (ptr_depth_limit <? S d)%nat; [discriminate|].
        apply ewrite_ok in He as (b & He & ->). eexists; eexists; split; reflexivity.
      - destruct kt; try discriminate. destruct et; try discriminate. inversion Sx; subst; try discriminate.
        cbn [kind_string under negb] in He. destruct (ptr_depth_limit <? S d)%nat; [discriminate|].
        apply ewrite_ok in He as (b & He & ->). eexists; eexists; split; reflexivity. }
    intros rest off. destruct (Dx rest off) as (m & Hm). exists (S m). rewrite decode_S, D1, D2, U. rewrite (zero_under t), U. cbn [zero app] in *.
    cbv zeta. rewrite Hc, Hm, Sf. reflexivity.
  - (* struct *) destruct (ptr_depth_limit <? S d)%nat; [discriminate|].
    apply ewrite_ok in He as (b & He & ->). apply eseq_ok in He as (b1 & b2 & He & [= <-] & ->).
    apply enc_struct_ok in He as (ts & Ft & ->).
    assert (struct_fields t = fs) as SF by (unfold struct_fields; rewrite U; reflexivity).
    assert (kind_struct t = true) as KS by (unfold kind_struct; rewrite U; reflexivity).
    set (es := filter (emitted t fl (VStruct l)) (sorted_fields t)) in *.
    assert (forall f, In f es -> In f (sorted_fields t) /\ emitted t fl (VStruct l) f = true) as ES by (intros f Hf; apply filter_In in Hf; exact Hf).
    assert (exists fts, map (fun e => fst (fst e)) fts = es /\ map (fun e => snd (fst e)) fts = ts /\
       Forall (fun e => let '(f, tx, y) := e in exists i a ft x, f_index f = [i] /\ nth_error fs i = Some (a, ft) /\ nth_error l i = Some x /\ same_data x y /\
          f_key f = field_key a /\ fa_exp a = true /\
        (is_ptr ft = false /\ decs ft (fl_field dfl a) (zero ft) tx y \/
         exists t' y', ft = TPtr t' /\ y = VPtr y' /\ decs t' (fl_elem (fl_field dfl a)) (zero t') tx y')) fts) as (fts & Ef & Et & Ff).
    { clearbody es. clear - ES Ft IH FE FC Ll SF KS Ad. induction Ft as [|f tx es ts (ft & ffl & x & Fb & Hx) Ft IHF]; [exists []; repeat split; constructor|].
      destruct IHF as (fts & E1 & E2 & Ff); [intros g Hg; apply ES; right; exact Hg|].
      destruct (ES f (or_introl eq_refl)) as [Hf Em].
      destruct (leaf_one t f KS) as (i & a & ft0 & If & Nf & Kf); [rewrite SF; intros; eapply FE; eauto|exact Hf|]. rewrite SF in Nf.
      assert (exists x0, nth_error l i = Some x0) as (x0 & Nx).
      { destruct (nth_error l i) eqn:E; eauto. apply nth_error_None in E. assert (nth_error fs i <> None) as N by congruence. apply nth_error_Some in N. lia. }
      assert (ft = ft0 /\ ffl = fl_field fl a /\ x = x0) as (-> & -> & ->).
      { rewrite If in Fb. cbn [field_by_index] in Fb.
        assert (is_nil t (VStruct l) = false) as X by (unfold is_nil; unfold kind_struct in KS; destruct (under t); try discriminate; reflexivity).
        rewrite X in Fb.
        assert ((match under t, VStruct l with TPtr t', VPtr v' => (t', fl_elem fl, v') | _, _ => (t, fl, VStruct l) end) = (t, fl, VStruct l)) as Y by (destruct (under t); reflexivity).
        rewrite Y in Fb. rewrite SF, Nf, Nx in Fb. injection Fb as <- <- <-. auto. }
      destruct (FC i a ft0 x0 Nf Nx) as [[_ NE]|(Ex & _ & Cs)]; [rewrite (NE f Hf If) in Em; discriminate|].
      assert (settable (fl_field dfl a) = true) as Sf1 by (unfold settable, fl_field; cbn; rewrite Ad, Ex; reflexivity).
      destruct Cs as [(Pf & Sx)|(t' & x' & -> & -> & Sx)].
      - destruct (IH n ltac:(lia) _ _ _ _ _ Sx Hx (fl_field dfl a) Sf1) as (y & Dy & Sd).
        exists ((f, tx, y) :: fts). cbn [map fst snd]. rewrite E1, E2. repeat split; auto. constructor; [|exact Ff].
        exists i, a, ft0, x0. repeat (split; [assumption|]). left. auto.
      - destruct (encode_ptr _ _ _ _ _ _ Sx Hx) as (m & Hm & Hx').
        destruct (IH m ltac:(lia) _ _ _ _ _ Sx Hx' (fl_elem (fl_field dfl a))) as (y & Dy & Sd).
        { unfold settable, fl_field. cbn. rewrite Ex. reflexivity. }
        exists ((f, tx, VPtr y) :: fts). cbn [map fst snd]. rewrite E1, E2. repeat split; auto. constructor; [|exact Ff].
        exists i, a, (TPtr t'), (VPtr x'). repeat (split; [assumption|]). split; [constructor; exact Sd|]. repeat (split; [assumption|]). right. eauto. }
    assert (exists l', (forall rest off, exists q, decode_struct C q t dfl (zero t) [] ((dtext (map enc_str (map f_key es)) ts) ++ "e"%byte :: rest) off
               = DOk (VStruct l') rest (off + zlen (dtext (map enc_str (map f_key es)) ts) + 1)) /\ Forall2 same_data l l') as (l' & Hq & Fs).
    { assert (forall rest off, exists n l1, decode_struct C n t dfl (zero t) [] ((dtext (map enc_str (map f_key es)) ts) ++ "e"%byte :: rest) off
               = DOk (VStruct l1) rest (off + zlen (dtext (map enc_str (map f_key es)) ts) + 1) /\
                 List.length l1 = List.length fs /\
                 forall i, nth_error l1 i = match find (fun e => match f_index (fst (fst e)) with [j] => Nat.eqb i j | _ => false end) fts with
                               | Some e => Some (snd e) | None => nth_error (map (fun p => zero (snd p)) fs) i end) as K.
      { intros rest off. destruct (decs_struct t dfl fts (map (fun p => zero (snd p)) fs) [] rest off) as (m & l1 & H1 & H2 & H3).
        - rewrite Ef. apply ascending_nil_cons; [apply ascending_filter, sorted_fields_ascending|]. intros k Hk. apply in_map_iff in Hk as (f & <- & Hf).
          apply ES in Hf as [Hf _]. destruct (leaf_one t f KS) as (i & a & ft0 & If & Nf & Kf); [rewrite SF; intros; eapply FE; eauto|exact Hf|].
          rewrite SF in Nf. apply nth_error_In in Nf. apply FE in Nf. rewrite Kf. tauto.
        - assert (map (fun e : finfo * bytes * gval => f_index (fst (fst e))) fts = map f_index es) as -> by (rewrite <- Ef, map_map; reflexivity).
          apply filter_map_nodup, index_nodup.
        - rewrite Forall_forall in *. intros [[f tx] y] He. pose proof (Ff _ He) as (i & a & ft & x & If & Nf & Nx & Sd & Kf & Ex & Cs).
          assert (In f es) as Hf. { rewrite <- Ef. apply in_map_iff. exists (f, tx, y). auto. }
          apply ES in Hf as [Hf _]. pose proof (proj1 (sorted_fields_in t f) Hf) as [As _].
          exists i, a, ft, (zero ft). split; [exact If|]. split; [exact As|]. split; [rewrite Kf; apply nth_error_In, FE in Nf; tauto|].
          split; [rewrite SF; exact Nf|]. split; [rewrite (map_nth_error _ _ _ Nf); reflexivity|]. split; [exact Ex|].
          destruct Cs as [Cs|(t' & y' & -> & -> & Cs)]; [left; exact Cs|right; eauto 8].
        - exact Ad.
        - rewrite Ef, Et in H1. exists m, l1. rewrite (zero_under t), U. cbn [zero]. split; [exact H1|]. split; [rewrite H2; apply map_length|exact H3]. }
      destruct (K [] 0) as (n0 & l1 & _ & L1 & N1). exists l1. split.
      - intros rest off. destruct (K rest off) as (n1 & l2 & H1 & L2 & N2). exists n1. rewrite H1. do 2 f_equal.
        apply nth_error_ext'. intros i. rewrite N1, N2. reflexivity.
      - apply forall2_nth; [lia|]. intros i x y Nx Ny. rewrite N1 in Ny.
        destruct (find _ fts) as [[[f tx] y0]|] eqn:Fd.
        + injection Ny as <-. apply find_some in Fd as [Hi He]. rewrite Forall_forall in Ff.
          destruct (Ff _ Hi) as (j & a & ft & x0 & If & Nf & Nx' & Sd & _). cbn [fst snd] in *. rewrite If in He. apply Nat.eqb_eq in He. subst j. congruence.
        + assert (exists a ft, nth_error fs i = Some (a, ft)) as (a & ft & Nf).
          { destruct (nth_error fs i) as [[a ft]|] eqn:E; eauto. apply nth_error_None in E. assert (nth_error l i <> None) as N by congruence. apply nth_error_Some in N. lia. }
          rewrite (map_nth_error _ _ _ Nf) in Ny. cbn [snd] in Ny. injection Ny as <-.
          destruct (FC i a ft x Nf Nx) as [[-> _]|(_ & (f & Hf & If & Em) & _)]; [constructor|].
          assert (In f es) as He by (apply filter_In; auto). rewrite <- Ef in He. apply in_map_iff in He as (e & Ee & He).
          pose proof (find_none _ _ Fd e He) as Q. cbn beta in Q. rewrite Ee, If, Nat.eqb_refl in Q. discriminate. }
    exists (VStruct l'). split; [|constructor; exact Fs]. intros rest off. destruct (Hq rest (off + 1)) as (q & Hq'). exists (S q).
    rewrite decode_S, D1, D2, U. cbn [app]. change (negb (beqb "d" "d")) with false. cbn iota. rewrite <- app_assoc. cbn [app].
    rewrite Hq'. f_equal. rewrite zlen_cons, zlen_app, zlen_e. lia.
Qed.

(** Encoding such a value succeeds unless it is nested too deeply. *)
Lemma ewrite_total b r : (exists o, r = EOk o) \/ depth_err r -> (exists o, ewrite b r = EOk o) \/ depth_err (ewrite b r).
Proof. intros [(o & ->)|(o & d & ->)]; cbn; [left; eauto|right; unfold depth_err; eauto]. Qed.
Lemma eseq_total r1 r2 : (exists o, r1 = EOk o) \/ depth_err r1 -> (exists o, r2 = EOk o) \/ depth_err r2 ->
  (exists o, eseq r1 r2 = EOk o) \/ depth_err (eseq r1 r2).
Proof. intros [(o & ->)|(o & d & ->)] H2; cbn [eseq]; [apply ewrite_total; exact H2|right; unfold depth_err; eauto]. Qed.
Lemma fold_total {A} (f : A -> eres) l : (forall x, In x l -> (exists o, f x = EOk o) \/ depth_err (f x)) ->
  (exists o, fold_right (fun x k => eseq (f x) k) (EOk []) l = EOk o) \/ depth_err (fold_right (fun x k => eseq (f x) k) (EOk []) l).
Proof. induction l as [|x l IH]; cbn; intros H; [left; eauto|]. apply eseq_total; auto. Qed.
Lemma ok_e : (exists o, EOk ["e"%byte] = EOk o) \/ depth_err (EOk ["e"%byte]).
Proof. left. eauto. Qed.

Lemma encode_total n : forall t fl d v, survives C t fl v -> (vdepth v < n)%nat ->
  (exists out, encode C n t fl d v = EOk out) \/ depth_err (encode C n t fl d v).
Proof.
  induction n as [|n IH]; intros t fl d v Sv Hn; [lia|].
  pose proof (survives_not_ptr _ _ _ Sv) as NP.
  destruct Sv as [id ms u fl v UM UU P Rf HB|id ms u fl v UM UU P Rf HB|t fl s UM UU U L|t fl w z UM UU U L|t fl w z UM UU U L|t fl et b UM UU U K8 L
                 |t fl et l UM UU U K8 F|t fl k et l UM UU U Lk F|t fl kt et m UM UU U Ks ND F|t fl dt x UM UU U AT Sx
                 |t fl nm fs l UM UU U Ll FE FC].
  { destruct HB as (b & v' & Hb & _). left. exists b. cbn [encode]. rewrite NP. cbn [negb andb]. cbn in UM. unfold ptr_impl, impl.
    destruct (m_marsh ms) as [[|]|]; try discriminate.
    - assert (enc_marshaler C id (Some v) fl d = EOk b) as E by (unfold enc_marshaler; rewrite Rf, Hb; reflexivity).
      destruct (fl_addr fl); exact E.
    - apply andb_prop in UM as [UM _]. rewrite UM. unfold enc_marshaler. rewrite Rf, Hb. reflexivity. }
  { destruct (HB (S n) d Hn) as [(b & d' & Hb)|(b & bv & v' & Hb & _)]; rewrite Hb; [right; unfold depth_err; eauto|left; eauto]. }
  all: cbn [encode]; destruct (uses_marshaler_false t fl UM) as [E1 E2]; rewrite E1, E2, U; clear E1 E2.
  1-3: left; eauto.
  - rewrite K8. left. eauto.
  - rewrite K8. destruct (_ <? _)%nat; [right; unfold depth_err; eauto|]. apply ewrite_total, eseq_total; [|apply ok_e]. apply fold_total.
    intros x Hx. rewrite Forall_forall in F. apply IH; [auto|]. pose proof (fold_max_in vdepth x l Hx). cbn [vdepth] in Hn. lia.
  - destruct (_ <? _)%nat; [right; unfold depth_err; eauto|]. apply ewrite_total, eseq_total; [|apply ok_e]. apply fold_total.
    intros x Hx. rewrite Forall_forall in F. apply IH; [auto|]. pose proof (fold_max_in vdepth x l Hx). cbn [vdepth] in Hn. lia.
  - rewrite Ks. cbn [negb]. destruct (_ <? _)%nat; [right; unfold depth_err; eauto|]. apply ewrite_total, eseq_total; [|apply ok_e].
    assert (forall p, In p (sort_map m) -> In p m) as HP by (intros p Hp; apply (Permutation_in _ (sort_by_perm fst m)) in Hp; exact Hp).
    induction (sort_map m) as [|p s IHs]; cbn [fold_right]; [left; eauto|].
    apply ewrite_total, eseq_total; [|apply IHs; intros q Hq; apply HP; right; exact Hq]. specialize (HP p (or_introl eq_refl)).
    rewrite Forall_forall in F. apply IH; [apply F; exact HP|]. pose proof (fold_max_in (fun p : bytes * gval => vdepth (snd p)) p m HP). cbn [vdepth] in Hn. cbn beta in *. lia.
  - apply IH; [exact Sx|]. cbn [vdepth] in Hn. lia.
  - destruct (_ <? _)%nat; [right; unfold depth_err; eauto|]. apply ewrite_total, eseq_total; [|apply ok_e].
    assert (struct_fields t = fs) as SF by (unfold struct_fields; rewrite U; reflexivity).
    assert (kind_struct t = true) as KS by (unfold kind_struct; rewrite U; reflexivity).
    assert (forall f, In f (sorted_fields t) -> In f (sorted_fields t)) as HS by auto. revert HS.
    generalize (sorted_fields t) at 1 3 4 as s. intros s HS. induction s as [|f s IHs]; cbn [fold_right]; [left; eauto|].
    specialize (IHs (fun g Hg => HS g (or_intror Hg))). specialize (HS f (or_introl eq_refl)).
    destruct (leaf_one t f KS) as (i & a & ft0 & If & Nf & Kf); [rewrite SF; intros; eapply FE; eauto|exact HS|]. rewrite SF in Nf.
    assert (exists x0, nth_error l i = Some x0) as (x0 & Nx).
    { destruct (nth_error l i) eqn:E; eauto. apply nth_error_None in E. assert (nth_error fs i <> None) as N by congruence. apply nth_error_Some in N. lia. }
    assert (field_by_index (f_index f) t fl (VStruct l) = Some (ft0, fl_field fl a, x0)) as Fb.
    { rewrite If. cbn [field_by_index].
      assert (is_nil t (VStruct l) = false) as X by (unfold is_nil; unfold kind_struct in KS; destruct (under t); try discriminate; reflexivity).
      rewrite X.
      assert ((match under t, VStruct l with TPtr t', VPtr v' => (t', fl_elem fl, v') | _, _ => (t, fl, VStruct l) end) = (t, fl, VStruct l)) as Y by (destruct (under t); reflexivity).
      rewrite Y. rewrite SF, Nf, Nx. reflexivity. }
    rewrite Fb. destruct (is_nil ft0 x0) eqn:Ni; [exact IHs|]. destruct (f_omit f && is_empty_value ft0 x0) eqn:Oe; [exact IHs|].
    apply ewrite_total, eseq_total; [|exact IHs].
    assert (emitted t fl (VStruct l) f = true) as Em by (unfold emitted; rewrite Fb, Ni, Oe; reflexivity).
    assert (vdepth x0 < n)%nat as Dx. { cbn [vdepth] in Hn. pose proof (fold_max_in vdepth x0 l (nth_error_In _ _ Nx)). lia. }
    destruct (FC i a ft0 x0 Nf Nx) as [[_ NE]|(Ex & _ & [(Pf & Sx)|(t' & x' & -> & -> & Sx)])]; [rewrite (NE f HS If) in Em; discriminate|apply IH; auto|].
    destruct n as [|n']; [lia|]. cbn [vdepth] in Dx.
    assert (encode C (S n') t' (fl_elem (fl_field fl a)) (S d) x' = encode C n' t' (fl_elem (fl_field fl a)) (S d) x') as Eq by (apply encode_fuel_eq; lia).
    assert (encode C (S n') (TPtr t') (fl_field fl a) (S d) (VPtr x') = encode C (S n') t' (fl_elem (fl_field fl a)) (S d) x') as ->.
    2: { apply IH; [exact Sx|lia]. }
    cbn [encode is_ptr under negb andb]. destruct (impl m_marsh (TPtr t')) as [id|] eqn:I; [|rewrite <- Eq; reflexivity].
    destruct t'; try discriminate. cbn [impl] in I. destruct (m_marsh ms) as [r|] eqn:M; [|discriminate]. injection I as <-.
    pose proof (survives_not_ptr _ _ _ Sx) as P. rewrite P. cbn [negb andb fl_addr fl_elem ptr_impl]. rewrite M. reflexivity.
Qed.
Theorem round_trip_total t v : survives C t fl_root_val v -> ~ nest 1001 t fl_root_val v ->
  exists b, marshal C (Some (t, v)) = EOk b.
Proof.
  intros Sv Nn. unfold marshal. destruct (encode_total (S (vdepth v)) t fl_root_val O v Sv ltac:(lia)) as [H|H]; [exact H|].
  apply encode_depth_nest in H; [|lia]. contradiction.
Qed.
Theorem round_trip_pointer_total t v : survives C t fl_new v -> ~ nest 1001 t fl_new v ->
  exists b, marshal C (Some (TPtr t, VPtr v)) = EOk b.
Proof.
  intros Sv Nn. unfold marshal. cbn [vdepth]. destruct (encode_total (S (vdepth v)) t fl_new O v Sv ltac:(lia)) as [(b & H)|H].
  - exists b. cbn [encode is_ptr under negb andb]. destruct (impl m_marsh (TPtr t)) as [id|] eqn:I; [|exact H].
    destruct t; try discriminate. cbn [impl] in I. destruct (m_marsh ms) as [r|] eqn:M; [|discriminate]. injection I as <-.
    pose proof (survives_not_ptr _ _ _ Sv) as P. cbn [encode] in H. rewrite P in H. cbn [negb andb fl_addr fl_new ptr_impl] in H. rewrite M in H. exact H.
  - apply encode_depth_nest in H; [|lia]. contradiction.
Qed.

(** *** C01 *)
Lemma decs_unmarshal t b v' : decs (TPtr t) fl_root_val (VPtr (zero t)) b (VPtr v') -> unmarshal C t (zero t) b = DOk (VPtr v') [] (zlen b).
Proof.
  intros D. destruct (D [] 0) as (n & H). rewrite app_nil_r, Z.add_0_l in H. eapply unmarshal_eq; [exact H|discriminate].
Qed.
Theorem round_trip_value t v b : survives C t fl_root_val v -> marshal C (Some (t, v)) = EOk b ->
  exists v', unmarshal C t (zero t) b = DOk (VPtr v') [] (zlen b) /\ same_data v v'.
Proof.
  intros Sv H. unfold marshal in H. destruct (encode_decs _ _ _ _ _ _ Sv H fl_new eq_refl) as (v' & D & Sd). exists v'. split; [|exact Sd].
  apply decs_unmarshal, decs_ptr; [eapply survives_not_ptr; eauto|exact D|reflexivity].
Qed.
Theorem round_trip_pointer t v b : survives C t fl_new v -> marshal C (Some (TPtr t, VPtr v)) = EOk b ->
  exists v', unmarshal C t (zero t) b = DOk (VPtr v') [] (zlen b) /\ same_data v v'.
Proof.
  intros Sv H. unfold marshal in H. apply encode_ptr in H as (m & _ & H); [|exact Sv].
  destruct (encode_decs _ _ _ _ _ _ Sv H fl_new eq_refl) as (v' & D & Sd). exists v'. split; [|exact Sd].
  apply decs_unmarshal, decs_ptr; [eapply survives_not_ptr; eauto|exact D|reflexivity].
Qed.
End Trip.
