(** Fuel: more fuel never changes a finished run, and [dec_fuel] always suffices. *)
From Verif Require Import GoBase GoBaseProofs Strconv BencTypes BencFields BencEncode BencDecode BencDecodeEqs BencSpec BencFieldSpec
  BencSpecProofs BencConsumeProofs BencFieldsProofs BencResolveProofs BencDecodeProofs.
From Coq Require Import ZifyBool ZifyNat ZifyN.

Lemma consume_mono_mut n :
  (forall inp off r, consume n inp off = r -> r <> CFuel -> consume (S n) inp off = r) /\
  (forall out inp off r, consume_list n out inp off = r -> r <> CFuel -> consume_list (S n) out inp off = r) /\
  (forall out lk inp off r, consume_dict n out lk inp off = r -> r <> CFuel -> consume_dict (S n) out lk inp off = r).
Proof.
  induction n as [|n (IHc & IHl & IHd)]; [repeat split; intros; subst; cbn in *; congruence|].
  split; [|split].
  - intros inp off r E N. destruct inp as [|c inp]; [exact E|].
    change (consume (S n) (c :: inp) off) with
      (if beqb c "i" then match read_int parse_int (c :: inp) off with
            | IOk txt rest _ off' => COk ("i"%byte :: txt ++ ["e"%byte]) rest off' | IErr e => CErr e end
       else if beqb c "l" then consume_list n ["l"%byte] inp (off + 1)
       else if beqb c "d" then consume_dict n ["d"%byte] [] inp (off + 1)
       else if is_digit c then match read_str (c :: inp) off with
            | SOk lenstr body rest off' => COk (lenstr ++ ":"%byte :: body) rest off' | SErr e => CErr e | SPanic => CPanic end
       else CErr (DSyntax off)) in E.
    change (consume (S (S n)) (c :: inp) off) with
      (if beqb c "i" then match read_int parse_int (c :: inp) off with
            | IOk txt rest _ off' => COk ("i"%byte :: txt ++ ["e"%byte]) rest off' | IErr e => CErr e end
       else if beqb c "l" then consume_list (S n) ["l"%byte] inp (off + 1)
       else if beqb c "d" then consume_dict (S n) ["d"%byte] [] inp (off + 1)
       else if is_digit c then match read_str (c :: inp) off with
            | SOk lenstr body rest off' => COk (lenstr ++ ":"%byte :: body) rest off' | SErr e => CErr e | SPanic => CPanic end
       else CErr (DSyntax off)).
    destruct (beqb c "i"); [exact E|]. destruct (beqb c "l"); [apply IHl; auto|]. destruct (beqb c "d"); [apply IHd; auto|]. exact E.
  - intros out inp off r E N. destruct inp as [|c inp]; [exact E|].
    change (consume_list (S n) out (c :: inp) off) with
      (if beqb c "e" then COk (out ++ ["e"%byte]) inp (off + 1)
       else match consume n (c :: inp) off with COk o rest off' => consume_list n (out ++ o) rest off' | r => r end) in E.
    change (consume_list (S (S n)) out (c :: inp) off) with
      (if beqb c "e" then COk (out ++ ["e"%byte]) inp (off + 1)
       else match consume (S n) (c :: inp) off with COk o rest off' => consume_list (S n) (out ++ o) rest off' | r => r end).
    destruct (beqb c "e"); [exact E|].
    destruct (consume n (c :: inp) off) as [o rest off'|e| |] eqn:D; [| | |congruence];
      apply IHc in D; try discriminate; rewrite D; auto.
  - intros out lk inp off r E N. destruct inp as [|c inp]; [exact E|].
    change (consume_dict (S n) out lk (c :: inp) off) with
      (if beqb c "e" then COk (out ++ ["e"%byte]) inp (off + 1)
       else match read_str (c :: inp) off with
         | SErr e => CErr e | SPanic => CPanic
         | SOk lenstr key rest off' => if negb (bytes_ltb lk key) then CErr DUnsorted
            else match consume n rest off' with COk o rest' off'' => consume_dict n (out ++ lenstr ++ ":"%byte :: key ++ o) key rest' off'' | r => r end end) in E.
    change (consume_dict (S (S n)) out lk (c :: inp) off) with
      (if beqb c "e" then COk (out ++ ["e"%byte]) inp (off + 1)
       else match read_str (c :: inp) off with
         | SErr e => CErr e | SPanic => CPanic
         | SOk lenstr key rest off' => if negb (bytes_ltb lk key) then CErr DUnsorted
            else match consume (S n) rest off' with COk o rest' off'' => consume_dict (S n) (out ++ lenstr ++ ":"%byte :: key ++ o) key rest' off'' | r => r end end).
    destruct (beqb c "e"); [exact E|]. destruct (read_str (c :: inp) off) as [ls key rest off'|e|]; try exact E.
    destruct (negb (bytes_ltb lk key)); [exact E|].
    destruct (consume n rest off') as [o rest' off''|e| |] eqn:D; [| | |congruence];
      apply IHc in D; try discriminate; rewrite D; auto.
Qed.
Lemma consume_mono n m inp off r : (n <= m)%nat -> consume n inp off = r -> r <> CFuel -> consume m inp off = r.
Proof. intros L. induction L as [|m L IH]; auto. intros E N. apply (consume_mono_mut m); auto. Qed.

Section Fuel.
Variable C : customs.

Lemma unmarshaler_mono n id r fl old wr inp off x : dec_unmarshaler C n id r fl old wr inp off = x -> x <> DFuel ->
  dec_unmarshaler C (S n) id r fl old wr inp off = x.
Proof.
  unfold dec_unmarshaler. destruct (fl_ro fl); [auto|]. intros E N.
  destruct (consume n inp off) as [o rest off'|e| |] eqn:D; [| | |congruence];
      apply (consume_mono n (S n)) in D; try discriminate; try lia; rewrite D; exact E.
Qed.
Lemma dmap_mono f r r' x : (forall y, r = y -> y <> DFuel -> r' = y) -> dmap f r = x -> x <> DFuel -> dmap f r' = x.
Proof. intros H E N. rewrite (H r eq_refl); [exact E|]. intros ->. cbn in E. congruence. Qed.

Ltac stepD D IH := destruct D as [? ? ?|? ?| |] eqn:DD; [| | |congruence]; apply IH in DD; try discriminate; rewrite DD; auto.

Lemma decode_mono_mut n :
  (forall t fl old inp off r, decode C n t fl old inp off = r -> r <> DFuel -> decode C (S n) t fl old inp off = r) /\
  (forall et fl pre post inp off r, decode_slice C n et fl pre post inp off = r -> r <> DFuel -> decode_slice C (S n) et fl pre post inp off = r) /\
  (forall et fl pre post inp off r, decode_array C n et fl pre post inp off = r -> r <> DFuel -> decode_array C (S n) et fl pre post inp off = r) /\
  (forall et fl m lk inp off r, decode_map C n et fl m lk inp off = r -> r <> DFuel -> decode_map C (S n) et fl m lk inp off = r) /\
  (forall t fl v0 lk inp off r, decode_struct C n t fl v0 lk inp off = r -> r <> DFuel -> decode_struct C (S n) t fl v0 lk inp off = r).
Proof.
  induction n as [|n (IHd & IHs & IHa & IHm & IHt)]; [repeat split; intros; subst; cbn in *; congruence|].
  split; [|split; [|split; [|split]]].
  - intros t fl old inp off r. rewrite (decode_S C n), (decode_S C (S n)).
    destruct (if negb (is_ptr t) && fl_addr fl then ptr_impl m_unmarsh t else None) as [id|]; [apply unmarshaler_mono|].
    destruct (impl m_unmarsh t) as [id|].
    { destruct t; try apply unmarshaler_mono. destruct old; apply unmarshaler_mono. }
    destruct (under t) as [|w|w| | |et|k et|kt et|nm fs| | |t'|i ms t'] eqn:U; auto.
    + destruct (kind_uint8 et); [auto|]. destruct inp as [|c inp]; [auto|]. destruct (negb (beqb c "l")); [auto|].
      destruct old; auto. destruct (settable fl); auto.
    + destruct inp as [|c inp]; [auto|]. destruct (negb (beqb c "l")); [auto|]. destruct old; auto.
    + destruct inp as [|c inp]; [auto|]. destruct (negb (beqb c "d")); [auto|]. destruct (negb (kind_string kt)); [auto|].
      destruct old; auto. destruct (settable fl); auto.
    + destruct inp as [|c inp]; [auto|]. destruct (negb (beqb c "d")); [auto|]. apply IHt.
    + destruct old; auto.
      * destruct inp as [|c inp]; [auto|]. cbv zeta. destruct (if beqb c "i" then _ else _) as [dt|]; [|auto].
        intros E N. destruct (decode C n dt fl_new (zero dt) (c :: inp) off) eqn:D; [| | |congruence];
          apply IHd in D; try discriminate; rewrite D; auto.
      * apply dmap_mono. intros y. apply IHd.
    + destruct old; auto. apply dmap_mono. intros y. apply IHd.
    + destruct old; auto. apply dmap_mono. intros y. apply IHd.
  - intros et fl pre post inp off r. rewrite (decode_slice_S C n), (decode_slice_S C (S n)). destruct inp as [|c inp]; [auto|].
    destruct (beqb c "e"); [auto|]. destruct (match post with [] => _ | _ => _ end) as [[x post']|]; [|auto].
    intros E N. destruct (decode C n et (fl_elem fl) x (c :: inp) off) eqn:D; [| | |congruence]; apply IHd in D; try discriminate; rewrite D; auto.
  - intros et fl pre post inp off r. rewrite (decode_array_S C n), (decode_array_S C (S n)). destruct inp as [|c inp]; [auto|].
    destruct (beqb c "e"); [auto|]. intros E N. destruct post as [|x post'].
    + destruct (consume n (c :: inp) off) eqn:D; [| | |congruence]; apply (consume_mono n (S n)) in D; try discriminate; try lia; rewrite D; auto.
    + destruct (decode C n et fl x (c :: inp) off) eqn:D; [| | |congruence]; apply IHd in D; try discriminate; rewrite D; auto.
  - intros et fl m lk inp off r. rewrite (decode_map_S C n), (decode_map_S C (S n)). destruct inp as [|c inp]; [auto|].
    destruct (beqb c "e"); [auto|]. destruct (read_str (c :: inp) off) as [ls key rest off'|e|]; [|auto|auto].
    destruct (negb (bytes_ltb lk key)); [auto|]. intros E N.
    destruct (decode C n (TPtr et) fl_root_val (VPtr (zero et)) rest off') as [x r1 o1|x e| |] eqn:D; [| | |congruence]; apply IHd in D; try discriminate; rewrite D; auto.
    destruct x; auto. destruct (fl_ro fl); auto.
  - intros t fl v0 lk inp off r. rewrite (decode_struct_S C n), (decode_struct_S C (S n)). destruct inp as [|c inp]; [auto|].
    destruct (beqb c "e"); [auto|]. destruct (read_str (c :: inp) off) as [ls key rest off'|e|]; [|auto|auto].
    destruct (negb (bytes_ltb lk key)); [auto|]. intros E N. destruct (assoc key (key_to_field t)) as [f|].
    + destruct (path_get (f_index f) t fl v0) as [[[ft ffl] x]|]; [|auto].
      destruct (decode C n ft ffl x rest off') eqn:D; [| | |congruence]; apply IHd in D; try discriminate; rewrite D; auto.
    + destruct (consume n rest off') eqn:D; [| | |congruence]; apply (consume_mono n (S n)) in D; try discriminate; try lia; rewrite D; auto.
Qed.
Lemma decode_mono n m t fl old inp off r : (n <= m)%nat -> decode C n t fl old inp off = r -> r <> DFuel -> decode C m t fl old inp off = r.
Proof. intros L. induction L as [|m L IH]; auto. intros E N. apply (decode_mono_mut m); auto. Qed.

(** *** Sufficiency *)
Variable K : nat.
Hypothesis HK : (4 <= K)%nat.
Let W := (2 * K + 8)%nat.
Definition meas (t : gty) (v : gval) : nat := (tdepth t + Nat.max (tdepth t) (vdepth v))%nat.

Lemma meas_zero t : (meas t (zero t) <= 2 * tdepth t)%nat.
Proof. unfold meas. pose proof (vdepth_zero t). lia. Qed.

Lemma unmarshaler_fuel n id r fl old wr inp off : (2 * List.length inp + 1 <= n)%nat -> dec_unmarshaler C n id r fl old wr inp off <> DFuel.
Proof.
  intros H. unfold dec_unmarshaler. destruct (fl_ro fl); [discriminate|].
  pose proof (consume_no_fuel n inp off H). destruct (consume n inp off); try discriminate; [|congruence].
  destruct (c_unmarsh C id r out); discriminate.
Qed.
Lemma dmap_fuel f r : r <> DFuel -> dmap f r <> DFuel.
Proof. destruct r; cbn; congruence. Qed.

(** Bound for the element loops on [L] remaining bytes. *)
Definition loop_bound (L : nat) : nat := (L * W + 2 * K + 5)%nat.

Definition leaf_bound (t : gty) (fl : flags) (v : gval) (lk : bytes) : Prop :=
  forall k f, assoc k (key_to_field t) = Some f -> bytes_ltb lk k = true ->
    forall ft ffl x, path_get (f_index f) t fl v = Some (ft, ffl, x) -> (meas ft x <= K)%nat.

Lemma path_meas p t fl v ft ffl x : p <> [] -> path_get p t fl v = Some (ft, ffl, x) -> (meas ft x < meas t v)%nat.
Proof. intros N H. pose proof (path_get_depth p t fl v ft ffl x N H). unfold meas. lia. Qed.
Lemma finfo_nonnil t f : finfo_of t f -> f_index f <> [].
Proof. intros (a & ft & L & _) E. rewrite E in L. discriminate. Qed.

Lemma decode_nil_base n t fl old off : match under t with TPtr _ | TAny | TIface => False | _ => True end -> (1 <= n)%nat ->
  decode C (S n) t fl old [] off <> DFuel.
Proof.
  intros HU HN. rewrite decode_S.
  assert (2 * List.length (@nil byte) + 1 <= n)%nat as Hcons by (cbn; lia).
  destruct (if negb (is_ptr t) && fl_addr fl then ptr_impl m_unmarsh t else None) as [id|]; [apply unmarshaler_fuel; exact Hcons|].
  destruct (impl m_unmarsh t) as [id|].
  { destruct t; try (apply unmarshaler_fuel; exact Hcons). destruct old; apply unmarshaler_fuel; exact Hcons. }
  destruct (under t) as [|w|w| | |et|k et|kt et|nm fs| | |t'|i ms t'] eqn:U; try destruct HU; try discriminate.
  destruct (kind_uint8 et); discriminate.
Qed.

Lemma decode_no_fuel_mut n :
  (forall t fl old inp off, (meas t old <= K)%nat -> 
     (List.length inp * W + 2 * meas t old + 4 <= n)%nat -> decode C n t fl old inp off <> DFuel) /\
  (forall t fl old inp off, (meas t old <= K)%nat -> match under t with TPtr _ | TAny | TIface => False | _ => True end ->
     ((List.length inp - 1) * W + 2 * K + 7 <= n)%nat -> decode C n t fl old inp off <> DFuel) /\
  (forall et fl pre post inp off, (meas et (zero et) <= K)%nat -> (forall x, In x post -> (meas et x <= K)%nat) ->
     (loop_bound (List.length inp) <= n)%nat -> decode_slice C n et fl pre post inp off <> DFuel) /\
  (forall et fl pre post inp off, (forall x, In x post -> (meas et x <= K)%nat) ->
     (loop_bound (List.length inp) <= n)%nat -> decode_array C n et fl pre post inp off <> DFuel) /\
  (forall et fl m lk inp off, (meas (TPtr et) (VPtr (zero et)) <= K)%nat ->
     (loop_bound (List.length inp) <= n)%nat -> decode_map C n et fl m lk inp off <> DFuel) /\
  (forall t fl v0 lk inp off, kind_struct t = true -> leaf_bound t fl v0 lk ->
     (loop_bound (List.length inp) <= n)%nat -> decode_struct C n t fl v0 lk inp off <> DFuel).
Proof.
  induction n as [|n (IHd & IHc & IHs & IHa & IHm & IHt)].
  { unfold loop_bound. repeat split; intros; exfalso; lia. }
  assert (forall t fl old inp off, (meas t old <= K)%nat -> match under t with TPtr _ | TAny | TIface => False | _ => True end ->
     ((List.length inp - 1) * W + 2 * K + 7 <= S n)%nat -> decode C (S n) t fl old inp off <> DFuel) as HC.
  { intros t fl old inp off HM HU HN. rewrite decode_S.
    assert (2 * List.length inp + 1 <= n)%nat as Hcons by (unfold W in *; nia).
    destruct (if negb (is_ptr t) && fl_addr fl then ptr_impl m_unmarsh t else None) as [id|]; [apply unmarshaler_fuel; exact Hcons|].
    destruct (impl m_unmarsh t) as [id|].
    { destruct t; try (apply unmarshaler_fuel; exact Hcons). destruct old; apply unmarshaler_fuel; exact Hcons. }
    pose proof (tdepth_under t) as TU.
    assert (forall c inp', inp = c :: inp' -> (loop_bound (List.length inp') <= n)%nat) as HL.
    { intros c inp' ->. unfold loop_bound. cbn [List.length] in HN. replace (S (List.length inp') - 1)%nat with (List.length inp') in HN by lia. lia. }
    destruct (under t) as [|w|w| | |et|k et|kt et|nm fs| | |t'|i ms t'] eqn:U; try destruct HU; try discriminate.
    + destruct (read_str inp off); try discriminate. destruct (settable fl); discriminate.
    + destruct (read_int parse_int inp off); try discriminate. destruct (settable fl); discriminate.
    + destruct (read_int parse_uint inp off); try discriminate. destruct (settable fl); discriminate.
    + destruct (kind_uint8 et).
      { destruct (read_str inp off); try discriminate. destruct (settable fl); discriminate. }
      destruct inp as [|c inp]; [discriminate|]. destruct (negb (beqb c "l")); [discriminate|]. specialize (HL c inp eq_refl).
      cbn [tdepth] in TU. pose proof (meas_zero et).
      assert (meas et (zero et) <= K)%nat by (unfold meas in *; lia).
      destruct old; try discriminate.
      * destruct (settable fl); [|discriminate]. apply IHs; auto. intros x [].
      * apply IHs; auto. intros x Hx. pose proof (fold_max_in vdepth x l Hx). unfold meas in *. cbn [vdepth] in HM. lia.
    + destruct inp as [|c inp]; [discriminate|]. destruct (negb (beqb c "l")); [discriminate|]. specialize (HL c inp eq_refl).
      cbn [tdepth] in TU. destruct old; try discriminate. apply IHa; auto.
      intros x Hx. pose proof (fold_max_in vdepth x l Hx). unfold meas in *. cbn [vdepth] in HM. lia.
    + destruct inp as [|c inp]; [discriminate|]. destruct (negb (beqb c "d")); [discriminate|]. destruct (negb (kind_string kt)); [discriminate|].
      specialize (HL c inp eq_refl). cbn [tdepth] in TU.
      assert (meas (TPtr et) (VPtr (zero et)) <= K)%nat.
      { pose proof (vdepth_zero et). unfold meas in *. cbn [tdepth vdepth]. lia. }
      destruct old; try discriminate; [destruct (settable fl); [|discriminate]|]; apply IHm; auto.
    + destruct inp as [|c inp]; [discriminate|]. destruct (negb (beqb c "d")); [discriminate|]. specialize (HL c inp eq_refl).
      apply IHt; auto.
      * unfold kind_struct. rewrite U. reflexivity.
      * intros k f Hf _ ft ffl x Hp. apply ktf_assoc in Hf as [_ Hf]. apply finfo_nonnil in Hf.
        pose proof (path_meas _ _ _ _ _ _ _ Hf Hp). lia. }
  split; [|split; [exact HC|split; [|split; [|split]]]].
  - intros t fl old inp off HM HN.
    destruct (under t) as [|w|w| | |et|k et|kt et|nm fs| | |t'|i ms t'] eqn:U;
      try (destruct inp as [|c0 inp0];
           [apply decode_nil_base; [rewrite U; exact I|lia]
           |apply HC; [exact HM|rewrite U; exact I|cbn [List.length] in *; replace (S (List.length inp0) - 1)%nat with (List.length inp0) by lia; unfold W in *; nia]]).
    + rewrite decode_S.
      assert (2 * List.length inp + 1 <= n)%nat as Hcons by (unfold W in *; nia).
      destruct (if negb (is_ptr t) && fl_addr fl then ptr_impl m_unmarsh t else None) as [id|]; [apply unmarshaler_fuel; exact Hcons|].
      destruct (impl m_unmarsh t) as [id|].
      { destruct t; try (apply unmarshaler_fuel; exact Hcons). destruct old; apply unmarshaler_fuel; exact Hcons. }
      rewrite U. destruct old; try discriminate.
      * destruct inp as [|c inp]; [discriminate|]. cbv zeta.
        assert (forall dt, In dt [TInt WInt; any_slice; any_map; TStr] -> decode C n dt fl_new (zero dt) (c :: inp) off <> DFuel) as HD.
        { intros dt Hdt. apply IHc.
          - pose proof (meas_zero dt). cbn in Hdt. destruct Hdt as [<-|[<-|[<-|[<-|[]]]]]; cbn in *; lia.
          - cbn in Hdt. destruct Hdt as [<-|[<-|[<-|[<-|[]]]]]; exact I.
          - cbn [List.length] in *. unfold W in *. pose proof (tdepth_pos t). unfold meas in HN. cbn [vdepth] in HN.
            replace (S (List.length inp) - 1)%nat with (List.length inp) by lia. nia. }
        assert (forall dt, In dt [TInt WInt; any_slice; any_map; TStr] ->
          match decode C n dt fl_new (zero dt) (c :: inp) off with
          | DOk v rest off' => if settable fl then DOk (VIface dt v) rest off' else DPanic
          | DErr _ e => DErr VNil e | DPanic => DPanic | DFuel => DFuel end <> DFuel) as HE.
        { intros dt Hdt. specialize (HD dt Hdt). destruct (decode C n dt fl_new (zero dt) (c :: inp) off); try discriminate; [|congruence].
          destruct (settable fl); discriminate. }
        destruct (beqb c "i"); [apply HE; cbn; auto|]. destruct (beqb c "l"); [apply HE; cbn; auto|].
        destruct (beqb c "d"); [apply HE; cbn; auto|]. destruct (is_digit c); [apply HE; cbn; auto|discriminate].
      * apply dmap_fuel. apply IHd; unfold meas in *; cbn [vdepth] in *; pose proof (tdepth_pos t); lia.
    + rewrite decode_S.
      assert (2 * List.length inp + 1 <= n)%nat as Hcons by (unfold W in *; nia).
      destruct (if negb (is_ptr t) && fl_addr fl then ptr_impl m_unmarsh t else None) as [id|]; [apply unmarshaler_fuel; exact Hcons|].
      destruct (impl m_unmarsh t) as [id|].
      { destruct t; try (apply unmarshaler_fuel; exact Hcons). destruct old; apply unmarshaler_fuel; exact Hcons. }
      rewrite U. destruct old; try discriminate.
      apply dmap_fuel. apply IHd; unfold meas in *; cbn [vdepth] in *; pose proof (tdepth_pos t); lia.
    + rewrite decode_S.
      assert (2 * List.length inp + 1 <= n)%nat as Hcons by (unfold W in *; nia).
      destruct (if negb (is_ptr t) && fl_addr fl then ptr_impl m_unmarsh t else None) as [id|]; [apply unmarshaler_fuel; exact Hcons|].
      destruct (impl m_unmarsh t) as [id|].
      { destruct t; try (apply unmarshaler_fuel; exact Hcons). destruct old; apply unmarshaler_fuel; exact Hcons. }
      rewrite U. pose proof (tdepth_ptr _ _ U). destruct old; try discriminate.
      apply dmap_fuel. apply IHd; unfold meas in *; cbn [vdepth] in *; lia.
  - intros et fl pre post inp off HZ HP HN. rewrite decode_slice_S. destruct inp as [|c inp]; [discriminate|].
    destruct (beqb c "e"); [discriminate|].
    destruct (match post with [] => _ | _ => _ end) as [[x post']|] eqn:EP; [|discriminate].
    assert ((meas et x <= K)%nat /\ forall y, In y post' -> (meas et y <= K)%nat) as [Hx Hpost].
    { destruct post as [|z post]; [destruct (settable fl); [|discriminate]|]; injection EP as <- <-.
      - split; [exact HZ|intros y []].
      - split; [apply HP; left; reflexivity|intros y Hy; apply HP; right; exact Hy]. }
    assert (decode C n et (fl_elem fl) x (c :: inp) off <> DFuel) as HD.
    { apply IHd; [exact Hx|]. unfold loop_bound in HN. lia. }
    destruct (decode C n et (fl_elem fl) x (c :: inp) off) eqn:D; try discriminate; [|congruence].
    apply decode_shrinks in D. apply IHs; auto. unfold loop_bound in *. unfold W in *. nia.
  - intros et fl pre post inp off HP HN. rewrite decode_array_S. destruct inp as [|c inp]; [discriminate|].
    destruct (beqb c "e"); [discriminate|]. destruct post as [|x post'].
    + assert (consume n (c :: inp) off <> CFuel) as HD.
      { apply consume_no_fuel. unfold loop_bound, W in *. nia. }
      destruct (consume n (c :: inp) off) eqn:D; try discriminate; [|congruence]. apply consume_shrinks in D.
      apply IHa; auto. unfold loop_bound in *. unfold W in *. nia.
    + assert (decode C n et fl x (c :: inp) off <> DFuel) as HD.
      { apply IHd; [apply HP; left; reflexivity|]. pose proof (HP x (or_introl eq_refl)). unfold loop_bound in HN. lia. }
      destruct (decode C n et fl x (c :: inp) off) eqn:D; try discriminate; [|congruence].
      apply decode_shrinks in D. apply IHa; [intros y Hy; apply HP; right; exact Hy|]. unfold loop_bound in *. unfold W in *. nia.
  - intros et fl m lk inp off HZ HN. rewrite decode_map_S. destruct inp as [|c inp]; [discriminate|].
    destruct (beqb c "e"); [discriminate|]. destruct (read_str (c :: inp) off) as [ls key rest off'|e|] eqn:R; [|discriminate|discriminate].
    apply read_str_shrinks in R. destruct (negb (bytes_ltb lk key)); [discriminate|].
    assert (decode C n (TPtr et) fl_root_val (VPtr (zero et)) rest off' <> DFuel) as HD.
    { apply IHd; [exact HZ|]. unfold loop_bound, W in *. nia. }
    destruct (decode C n (TPtr et) fl_root_val (VPtr (zero et)) rest off') as [x r1 o1|x e| |] eqn:D; try discriminate; [|congruence].
    apply decode_shrinks in D. destruct x; try discriminate. destruct (fl_ro fl); [discriminate|]. apply IHm; auto.
    unfold loop_bound, W in *. nia.
  - intros t fl v0 lk inp off Ks HB HN. rewrite decode_struct_S. destruct inp as [|c inp]; [discriminate|].
    destruct (beqb c "e"); [discriminate|]. destruct (read_str (c :: inp) off) as [ls key rest off'|e|] eqn:R; [|discriminate|discriminate].
    apply read_str_shrinks in R. destruct (bytes_ltb lk key) eqn:Lt; [|discriminate]. cbn [negb].
    destruct (assoc key (key_to_field t)) as [f|] eqn:Hf.
    + destruct (path_get (f_index f) t fl v0) as [[[ft ffl] x]|] eqn:Hp; [|discriminate].
      pose proof (HB _ _ Hf Lt _ _ _ Hp) as Hm.
      assert (decode C n ft ffl x rest off' <> DFuel) as HD.
      { apply IHd; [exact Hm|]. unfold loop_bound, W in *. nia. }
      destruct (decode C n ft ffl x rest off') as [x' r1 o1|x' e| |] eqn:D; try discriminate; [|congruence].
      apply decode_shrinks in D. apply IHt; [exact Ks| |unfold loop_bound, W in *; nia].
      intros k' f' Hf' Lt' ft' ffl' x'' Hp'.
      assert (bytes_ltb lk k' = true) as Lt2 by (eapply bytes_ltb_trans; eauto).
      assert (f_index f' <> f_index f) as Ne.
      { eapply ktf_path_inj; eauto. intros ->. rewrite bytes_ltb_irrefl in Lt'. discriminate. }
      destruct (ktf_assoc _ _ _ Hf) as (_ & a & fa & L & _). destruct (ktf_assoc _ _ _ Hf') as (_ & a' & fa' & L' & _).
      rewrite (path_other (f_index f') (f_index f) t fl v0 x' _ _ _ Ks L' L Ne Hp) in Hp'.
      eapply HB; eauto.
    + assert (consume n rest off' <> CFuel) as HD.
      { apply consume_no_fuel. unfold loop_bound, W in *. nia. }
      destruct (consume n rest off') eqn:D; try discriminate; [|congruence]. apply consume_shrinks in D.
      apply IHt; [exact Ks| |unfold loop_bound, W in *; nia].
      intros k' f' Hf' Lt' ft' ffl' x'' Hp'. eapply HB; eauto. eapply bytes_ltb_trans; eauto.
Qed.
End Fuel.

Theorem dec_fuel_enough C t fl old inp off n : (dec_fuel t old inp <= n)%nat -> decode C n t fl old inp off <> DFuel.
Proof.
  intros H. set (K := (2 * tdepth t + vdepth old + 4)%nat).
  assert (4 <= K)%nat as HK by (unfold K; lia).
  destruct (decode_no_fuel_mut C K HK n) as (HD & _). apply HD.
  - unfold meas, K. lia.
  - unfold dec_fuel in H. unfold meas, K. nia.
Qed.
Theorem unmarshal_no_fuel C t old inp : unmarshal C t old inp <> DFuel.
Proof. unfold unmarshal. apply dec_fuel_enough. lia. Qed.
(** Any run that finishes with some fuel is the run of [unmarshal]. *)
Theorem unmarshal_eq C n t old inp r : decode C n (TPtr t) fl_root_val (VPtr old) inp 0 = r -> r <> DFuel -> unmarshal C t old inp = r.
Proof.
  intros E N. unfold unmarshal. set (F := dec_fuel (TPtr t) (VPtr old) inp).
  pose proof (dec_fuel_enough C (TPtr t) fl_root_val (VPtr old) inp 0 F (le_n _)) as NF.
  destruct (Nat.le_ge_cases n F) as [L|L].
  - eapply decode_mono; eauto.
  - pose proof (decode_mono C F n _ _ _ _ _ _ L eq_refl NF). congruence.
Qed.
