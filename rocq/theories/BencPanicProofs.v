From Verif Require Import GoBase Strconv BencTypes BencFields BencEncode BencDecode BencSpec BencFieldSpec BencPanicSpec GoBaseProofs StrconvProofs BencSpecProofs
  BencConsumeProofs BencDecodeEqs BencDecodeProofs BencFieldsProofs BencResolveProofs BencFuelProofs BencFrameProofs BencApiProofs.

Lemma bad_app out rest : bad_length rest -> bad_length (out ++ rest).
Proof. intros (a & l & r & n & -> & G & N). exists (out ++ a), l, r, n. rewrite <- app_assoc. auto. Qed.
Lemma bad_cons c rest : bad_length rest -> bad_length (c :: rest).
Proof. apply (bad_app [c]). Qed.
Lemma read_str_panic inp off : read_str inp off = SPanic -> bad_length inp.
Proof.
  unfold read_str. destruct (read_until ":" inp) as [[l r]|] eqn:E; [|discriminate]. destruct (atoi l) as [z|] eqn:A; [|discriminate].
  destruct (make_ok z) eqn:M; cbn [negb]; [destruct (zlen r <? z); discriminate|]. intros _.
  apply read_until_some in E as [-> _]. exists [], l, r, z. split; [reflexivity|].
  split; [apply go_int_parse; exact A|]. unfold make_ok, max_alloc in M. lia.
Qed.
Lemma consume_panic_mut n :
  (forall inp off, consume n inp off = CPanic -> bad_length inp) /\
  (forall b inp off, consume_list n b inp off = CPanic -> bad_length inp) /\
  (forall b lk inp off, consume_dict n b lk inp off = CPanic -> bad_length inp).
Proof.
  induction n as [|n (IHc & IHl & IHd)]; [repeat split; intros; discriminate|].
  split; [|split].
  - intros inp off H. destruct inp as [|c inp]; [discriminate|]. cbn [consume] in H.
    destruct (beqb c "i"); [destruct (read_int parse_int (c :: inp) off); discriminate|].
    destruct (beqb c "l"); [apply bad_cons; eapply IHl; exact H|]. destruct (beqb c "d"); [apply bad_cons; eapply IHd; exact H|].
    destruct (is_digit c); [|discriminate]. destruct (read_str (c :: inp) off) eqn:R; try discriminate. eapply read_str_panic; exact R.
  - intros b inp off H. destruct inp as [|c inp]; [discriminate|]. cbn [consume_list] in H.
    destruct (beqb c "e"); [discriminate|]. destruct (consume n (c :: inp) off) as [o r o'| | |] eqn:R; try discriminate.
    + apply IHl in H. apply consume_sound in R as (E & _). rewrite E. apply bad_app. exact H.
    + eapply IHc; exact R.
  - intros b lk inp off H. destruct inp as [|c inp]; [discriminate|]. cbn [consume_dict] in H.
    destruct (beqb c "e"); [discriminate|]. destruct (read_str (c :: inp) off) as [ls key r0 off0| |] eqn:R0; try discriminate; [|eapply read_str_panic; exact R0].
    apply read_str_ok in R0 as (E0 & _). destruct (negb (bytes_ltb lk key)); [discriminate|].
    destruct (consume n r0 off0) as [o r o'| | |] eqn:R; try discriminate.
    + apply IHd in H. apply consume_sound in R as (E & _). rewrite E0, E. apply bad_app, bad_app. exact H.
    + rewrite E0. apply bad_app. eapply IHc; exact R.
Qed.

Section Panic.
Variable C : customs.
(** The input has a bad length, or a part of it makes a method panic. *)
Definition custom_panics (inp : bytes) : Prop :=
  exists a b r id v, inp = a ++ b ++ r /\ c_unmarsh C id (Some v) b = UPanic.
Definition blame (inp : bytes) : Prop := bad_length inp \/ custom_panics inp.
Lemma blame_app out rest : blame rest -> blame (out ++ rest).
Proof.
  intros [B|(a & b & r & id & v & -> & U)]; [left; apply bad_app, B|]. right. exists (out ++ a), b, r, id, v. rewrite app_assoc. auto.
Qed.
Lemma blame_cons c rest : blame rest -> blame (c :: rest).
Proof. apply (blame_app [c]). Qed.

Lemma settable_split fl : settable fl = true <-> fl_addr fl = true /\ fl_ro fl = false.
Proof. unfold settable. destruct (fl_addr fl), (fl_ro fl); cbn; intuition discriminate. Qed.

Lemma unmarshaler_panic n id x fl old wr inp off : fl_ro fl = false -> dec_unmarshaler C n id (Some x) fl old wr inp off = DPanic -> blame inp.
Proof.
  unfold dec_unmarshaler. intros ->. destruct (consume n inp off) eqn:R; try discriminate.
  - destruct (c_unmarsh C id (Some x) out) eqn:U; try discriminate. intros _. apply consume_sound in R as (E & _). right. exists [], out, rest, id, x. auto.
  - intros _. left. destruct (consume_panic_mut n) as (K & _). eapply K. exact R.
Qed.


(** A value the decoder is called on: addressable and ready, or a pointer to such. *)
Definition target (t : gty) (fl : flags) (v : gval) : Prop :=
  fl_ro fl = false /\ ((fl_addr fl = true /\ ready t v) \/ exists t' v', t = TPtr t' /\ v = VPtr v' /\ ready t' v').

Lemma ready_struct t v : kind_struct t = true -> has_unmarshaler t = false -> ready t v ->
  exists nm fs l, under t = TStruct nm fs /\ v = VStruct l /\ List.length l = List.length fs /\
    (forall i a ft x, nth_error fs i = Some (a, ft) -> nth_error l i = Some x ->
       field_skipped a ft = true \/
       ((fa_exp a = true \/ field_embed a ft = true /\ is_ptr ft = false) /\
        (field_embed a ft = true -> has_unmarshaler (deref_ty ft) = false) /\
         ((is_ptr ft = false /\ ready ft x) \/
          (exists t' x', under ft = TPtr t' /\ x = VPtr x' /\ ready t' x') \/
          (exists t', under ft = TPtr t' /\ x = VNil /\ ready t' (zero t'))))).
Proof.
  intros K U R. unfold kind_struct in K. destruct R; try congruence; try (rewrite H in K; discriminate).
  - destruct (under t); discriminate || contradiction.
  - destruct H as [H|H]; rewrite H in K; discriminate.
  - exists nm, fs, l. auto.
Qed.

Lemma path_get_step i p t fl l a ft x : nth_error (struct_fields t) i = Some (a, ft) -> nth_error l i = Some x ->
  path_get (i :: p) t fl (VStruct l) =
     match under ft, x with
              | TPtr t', VNil => if settable (fl_field fl a) then path_get p t' (fl_elem (fl_field fl a)) (zero t') else None
              | TPtr t', VPtr x' => path_get p t' (fl_elem (fl_field fl a)) x'
              | _, _ => path_get p ft (fl_field fl a) x
              end.
Proof. intros A B. cbn [path_get]. rewrite A, B. reflexivity. Qed.

Lemma ready_path p : forall t v a ft fl, kind_struct t = true -> has_unmarshaler t = false -> ready t v ->
  leaf_at t p = Some (a, ft) -> fl_addr fl = true ->
  exists ft' ffl x, path_get p t fl v = Some (ft', ffl, x) /\ settable ffl = true /\ ready ft' x.
Proof.
  induction p as [|i p IH]; intros t v a ft fl K U R L A; [discriminate|].
  destruct (ready_struct t v K U R) as (nm & fs & l & Eu & -> & Len & F).
  apply leaf_at_step in L as (a0 & ft0 & N & S & L). rewrite kind_struct_deref in N by exact K.
  assert (Nf : nth_error fs i = Some (a0, ft0)) by (unfold struct_fields in N; rewrite Eu in N; exact N).
  destruct (nth_error l i) as [x|] eqn:Nx.
  2: { apply nth_error_None in Nx. assert (nth_error fs i <> None) by congruence. apply nth_error_Some in H. lia. }
  rewrite (path_get_step _ _ _ _ _ _ _ _ N Nx).
  destruct (F _ _ _ _ Nf Nx) as [B|(E & Hm & V)]; [congruence|].
  assert (Fa : fl_addr (fl_field fl a0) = true) by exact A.
  destruct L as [(-> & Em & -> & ->)|(Np & Em & L)].
  - destruct E as [E|[E _]]; [|congruence]. assert (Sf : settable (fl_field fl a) = true) by (unfold settable, fl_field; cbn; rewrite A, E; reflexivity).
    destruct V as [(Ip & V)|[(t' & x' & Et & -> & V)|(t' & Et & -> & V)]].
    + exists ft, (fl_field fl a), x. split; [|auto]. unfold is_ptr in Ip. destruct (under ft); try reflexivity. discriminate.
    + rewrite Et. exists t', (fl_elem (fl_field fl a)), x'. split; [reflexivity|]. split; [|exact V]. unfold settable, fl_elem, fl_field; cbn. rewrite E. reflexivity.
    + rewrite Et, Sf. exists t', (fl_elem (fl_field fl a)), (zero t'). split; [reflexivity|]. split; [|exact V]. unfold settable, fl_elem, fl_field; cbn. rewrite E. reflexivity.
  - specialize (Hm Em). pose proof (embed_struct _ _ Em) as Ks.
    destruct V as [(Ip & V)|[(t' & x' & Et & -> & V)|(t' & Et & -> & V)]].
    + assert (D : deref_ty ft0 = ft0) by (unfold is_ptr in Ip; unfold deref_ty; destruct (under ft0); try reflexivity; discriminate).
      rewrite D in *. destruct (IH ft0 x a ft (fl_field fl a0) Ks Hm V L Fa) as (ft' & ffl & y & G & Q).
      exists ft', ffl, y. split; [|exact Q]. unfold is_ptr in Ip. destruct (under ft0); try exact G. discriminate.
    + assert (D : deref_ty ft0 = t') by (unfold deref_ty; rewrite Et; reflexivity). rewrite D in *. rewrite Et.
      apply (IH t' x' a ft); auto. destruct (leaf_at_deref ft0 p) as [Q|Q]; rewrite D in Q; congruence.
    + destruct E as [E|[_ E]]; [|unfold is_ptr in E; rewrite Et in E; discriminate].
      assert (Sf : settable (fl_field fl a0) = true) by (unfold settable, fl_field; cbn; rewrite A, E; reflexivity).
      assert (D : deref_ty ft0 = t') by (unfold deref_ty; rewrite Et; reflexivity). rewrite D in *. rewrite Et, Sf.
      apply (IH t' (zero t') a ft); auto. destruct (leaf_at_deref ft0 p) as [Q|Q]; rewrite D in Q; congruence.
Qed.

Lemma ready_any_zero dt : dt = TInt WInt \/ dt = any_slice \/ dt = any_map \/ dt = TStr -> ready dt (zero dt).
Proof.
  assert (A : ready TAny (zero TAny)) by (apply rd_any_nil; reflexivity).
  intros [->|[->|[->| ->]]]; [eapply rd_int; reflexivity| |eapply rd_map; [reflexivity|exact A]|apply rd_str; reflexivity].
  eapply rd_slice_nil; [reflexivity|exact A].
Qed.

Definition fields_ready t fl v lk := forall k f, assoc k (key_to_field t) = Some f -> bytes_ltb lk k = true ->
   exists ft ffl x, path_get (f_index f) t fl v = Some (ft, ffl, x) /\ settable ffl = true /\ ready ft x.

Lemma ready_inv t v : ready t v -> has_unmarshaler t = true \/
  match under t with
  | TStr | TInt _ | TUint _ | TBool | TOther | TNamed _ _ _ => True
  | TSlice et => kind_uint8 et = true \/ ready et (zero et) /\ (v = VNil \/ exists l, v = VSlice l /\ Forall (ready et) l)
  | TArr _ et => exists l, v = VSlice l /\ Forall (ready et) l
  | TMap _ et => ready et (zero et)
  | TAny | TIface => v = VNil \/ exists t' v', v = VIface (TPtr t') (VPtr v') /\ ready t' v'
  | TPtr t' => exists v', v = VPtr v' /\ ready t' v'
  | TStruct _ _ => True
  end.
Proof.
  intros R. destruct R; auto; right;
    repeat match goal with H : under ?t = _ |- _ => rewrite H; clear H end; eauto 6.
  - destruct (under t); auto; contradiction.
  - destruct H as [H|H]; rewrite H; eauto.
Qed.

Lemma has_unm_none t : is_ptr t = false -> ptr_impl m_unmarsh t = None -> has_unmarshaler t = false.
Proof. unfold ptr_impl, has_unmarshaler. destruct t; auto. destruct (m_unmarsh ms); [discriminate|reflexivity]. Qed.
Lemma has_unm_ptr t : is_ptr t = true -> has_unmarshaler t = false.
Proof. unfold has_unmarshaler. destruct t; auto. intros ->. apply andb_false_r. Qed.

Lemma decode_panic_mut n :
  (forall t fl v inp off, target t fl v -> decode C n t fl v inp off = DPanic -> blame inp) /\
  (forall et fl pre post inp off, settable fl = true -> ready et (zero et) -> Forall (ready et) post ->
      decode_slice C n et fl pre post inp off = DPanic -> blame inp) /\
  (forall et fl pre post inp off, settable fl = true -> Forall (ready et) post ->
      decode_array C n et fl pre post inp off = DPanic -> blame inp) /\
  (forall et fl m lk inp off, fl_ro fl = false -> ready et (zero et) -> decode_map C n et fl m lk inp off = DPanic -> blame inp) /\
  (forall t fl v lk inp off, kind_struct t = true -> fields_ready t fl v lk ->
      decode_struct C n t fl v lk inp off = DPanic -> blame inp).
Proof.
  induction n as [|n (IHd & IHs & IHa & IHm & IHt)]; [repeat split; intros; discriminate|].
  pose proof (consume_panic_mut n) as (CP & _).
  repeat split.
  - intros t fl v inp off [Ro T] H. rewrite decode_S in H.
    destruct (if negb (is_ptr t) && fl_addr fl then ptr_impl m_unmarsh t else None) as [id|] eqn:Pi.
    { eapply unmarshaler_panic; eassumption. }
    destruct (impl m_unmarsh t) as [id|] eqn:Im.
    { destruct T as [[A R]|(t' & v' & -> & -> & R)]; [|eapply unmarshaler_panic; eassumption].
      destruct t; try discriminate; [|eapply unmarshaler_panic; eassumption].
      apply ready_inv in R as [R|(v' & -> & R)]; [discriminate|]. eapply unmarshaler_panic; eassumption. }
    destruct T as [[A R]|(t' & v' & -> & -> & R)].
    2: { cbn [under] in H. unfold dmap in H. destruct (decode C n t' (fl_elem fl) v' inp off) eqn:D; try discriminate.
         eapply IHd; [|exact D]. split; [exact Ro|]. left. split; [reflexivity|exact R]. }
    assert (U : has_unmarshaler t = false).
    { destruct (is_ptr t) eqn:Ip; [apply has_unm_ptr; exact Ip|]. apply has_unm_none; [exact Ip|]. rewrite A in Pi. exact Pi. }
    assert (Sf : settable fl = true) by (apply settable_split; auto).
    destruct (ready_inv _ _ R) as [B|I]; [congruence|].
    destruct (under t) eqn:Ut; try discriminate.
    + destruct (read_str inp off) eqn:Rs; try discriminate; [rewrite Sf in H; discriminate|left; eapply read_str_panic; exact Rs].
    + destruct (read_int parse_int inp off); [rewrite Sf in H|]; discriminate.
    + destruct (read_int parse_uint inp off); [rewrite Sf in H|]; discriminate.
    + destruct (kind_uint8 g) eqn:K8.
      * destruct (read_str inp off) eqn:Rs; try discriminate; [rewrite Sf in H; discriminate|left; eapply read_str_panic; exact Rs].
      * destruct I as [I|[Z I]]; [discriminate|]. destruct inp as [|c inp]; [discriminate|]. destruct (negb (beqb c "l")); [discriminate|]. apply blame_cons.
        destruct I as [->|(l & -> & F)]; [rewrite Sf in H|]; eapply IHs; eauto.
    + destruct I as (l & -> & F). destruct inp as [|c inp]; [discriminate|]. destruct (negb (beqb c "l")); [discriminate|]. apply blame_cons.
      eapply IHa; eauto.
    + destruct inp as [|c inp]; [discriminate|]. destruct (negb (beqb c "d")); [discriminate|]. destruct (negb (kind_string g1)); [discriminate|]. apply blame_cons.
      destruct v; try discriminate; [rewrite Sf in H|]; eapply IHm; eauto.
    + destruct inp as [|c inp]; [discriminate|]. destruct (negb (beqb c "d")); [discriminate|]. apply blame_cons.
      assert (K : kind_struct t = true) by (unfold kind_struct; rewrite Ut; reflexivity).
      eapply IHt; [exact K| |exact H]. intros k f Ef _. apply ktf_assoc in Ef as (_ & a & ft & L & _).
      apply (ready_path (f_index f) t v a ft); auto.
    + destruct I as [->|(t' & v' & -> & R')].
      * destruct inp as [|c inp]; [discriminate|].
        cbv zeta in H.
        match type of H with match ?d with Some _ => _ | None => _ end = _ => destruct d as [dt|] eqn:Ed end; [|discriminate].
        destruct (decode C n dt fl_new (zero dt) (c :: inp) off) eqn:D; try discriminate; [rewrite Sf in H; discriminate|].
        eapply IHd; [|exact D]. split; [reflexivity|]. left. split; [reflexivity|]. apply ready_any_zero.
        destruct (beqb c "i"); [injection Ed as <-; auto|]. destruct (beqb c "l"); [injection Ed as <-; auto|].
        destruct (beqb c "d"); [injection Ed as <-; auto|]. destruct (is_digit c); [injection Ed as <-; auto|discriminate].
      * unfold dmap in H. destruct (decode C n (TPtr t') (fl_noaddr fl) (VPtr v') inp off) eqn:D; try discriminate.
        eapply IHd; [|exact D]. split; [exact Ro|]. right. eauto.
    + destruct I as [->|(t' & v' & -> & R')]; [discriminate|].
        unfold dmap in H. destruct (decode C n (TPtr t') (fl_noaddr fl) (VPtr v') inp off) eqn:D; try discriminate.
        eapply IHd; [|exact D]. split; [exact Ro|]. right. eauto.
    + destruct I as (v' & -> & R'). unfold dmap in H. destruct (decode C n g (fl_elem fl) v' inp off) eqn:D; try discriminate.
      eapply IHd; [|exact D]. split; [exact Ro|]. left. split; [reflexivity|exact R'].
  - intros et fl pre post inp off Sf Z F H. rewrite decode_slice_S in H. destruct inp as [|c inp]; [discriminate|].
    destruct (beqb c "e"); [discriminate|]. rewrite Sf in H.
    assert (exists x post', (match post with [] => Some (zero et, []) | x :: post' => Some (x, post') end) = Some (x, post') /\ ready et x /\ Forall (ready et) post') as (x & post' & E & Rx & F').
    { destruct F; eauto 6. }
    rewrite E in H. destruct (decode C n et (fl_elem fl) x (c :: inp) off) as [x' rest off'| | |] eqn:D; try discriminate.
    + pose proof (decode_sound _ _ _ _ _ _ _ _ _ _ D) as (bv & out & _ & -> & _). apply blame_app. eapply IHs; [exact Sf|exact Z|exact F'|exact H].
    + eapply IHd; [|exact D]. apply settable_split in Sf as [_ Ro]. split; [exact Ro|]. left. split; [reflexivity|exact Rx].
  - intros et fl pre post inp off Sf F H. rewrite decode_array_S in H. destruct inp as [|c inp]; [discriminate|].
    destruct (beqb c "e"); [discriminate|]. destruct F as [|x post Rx F].
    + destruct (consume n (c :: inp) off) as [o rest off'| | |] eqn:D; try discriminate; [|left; eapply CP; exact D].
      apply consume_sound in D as (-> & _). apply blame_app. eapply IHa; [exact Sf| |exact H]. constructor.
    + destruct (decode C n et fl x (c :: inp) off) as [x' rest off'| | |] eqn:D; try discriminate.
      * pose proof (decode_sound _ _ _ _ _ _ _ _ _ _ D) as (bv & out & _ & -> & _). apply blame_app. eapply IHa; [exact Sf|exact F|exact H].
      * eapply IHd; [|exact D]. apply settable_split in Sf as [A Ro]. split; [exact Ro|]. left. auto.
  - intros et fl m lk inp off Ro Z H. rewrite decode_map_S in H. destruct inp as [|c inp]; [discriminate|].
    destruct (beqb c "e"); [discriminate|]. destruct (read_str (c :: inp) off) as [ls key r0 off0| |] eqn:Rs; try discriminate; [|left; eapply read_str_panic; exact Rs].
    apply read_str_ok in Rs as (E0 & _). destruct (negb (bytes_ltb lk key)); [discriminate|]. rewrite E0. apply blame_app.
    destruct (decode C n (TPtr et) fl_root_val (VPtr (zero et)) r0 off0) as [x' rest off'| | |] eqn:D; try discriminate.
    + destruct x'; try discriminate. rewrite Ro in H.
      pose proof (decode_sound _ _ _ _ _ _ _ _ _ _ D) as (bv & out & _ & -> & _). apply blame_app. eapply IHm; [exact Ro|exact Z|exact H].
    + eapply IHd; [|exact D]. split; [reflexivity|]. right. eauto.
  - intros t fl v lk inp off K F H. rewrite decode_struct_S in H. destruct inp as [|c inp]; [discriminate|].
    destruct (beqb c "e"); [discriminate|]. destruct (read_str (c :: inp) off) as [ls key r0 off0| |] eqn:Rs; try discriminate; [|left; eapply read_str_panic; exact Rs].
    apply read_str_ok in Rs as (E0 & _). destruct (bytes_ltb lk key) eqn:Lt; cbn [negb] in H; [|discriminate]. rewrite E0. apply blame_app.
    destruct (assoc key (key_to_field t)) as [f|] eqn:Ef.
    + destruct (F _ _ Ef Lt) as (ft & ffl & x & G & Sf & Rx). rewrite G in H.
      destruct (decode C n ft ffl x r0 off0) as [x' rest off'| | |] eqn:D; try discriminate.
      * pose proof (decode_sound _ _ _ _ _ _ _ _ _ _ D) as (bv & out & _ & -> & _). apply blame_app. eapply IHt; [exact K| |exact H].
        intros k f' Ef' Lt'. assert (Nk : k <> key) by (intros ->; rewrite bytes_ltb_irrefl in Lt'; discriminate).
        pose proof (ktf_path_inj _ _ _ _ _ Ef' Ef Nk) as Np.
        apply ktf_assoc in Ef as (_ & a1 & ft1 & L1 & _). pose proof Ef' as Ef''. apply ktf_assoc in Ef'' as (_ & a2 & ft2 & L2 & _).
        rewrite (path_other _ _ _ _ _ _ _ _ _ K L2 L1 Np G). apply F with k; [exact Ef'|]. eapply bytes_ltb_trans; eassumption.
      * eapply IHd; [|exact D]. apply settable_split in Sf as [A Ro]. split; [exact Ro|]. left. auto.
    + destruct (consume n r0 off0) as [o rest off'| | |] eqn:D; try discriminate; [|left; eapply CP; exact D].
      apply consume_sound in D as (-> & _). apply blame_app. eapply IHt; [exact K| |exact H].
      intros k f' Ef' Lt'. apply F with k; [exact Ef'|]. eapply bytes_ltb_trans; eassumption.
Qed.

Lemma unmarshal_blame t old inp : ready t old -> unmarshal C t old inp = DPanic -> blame inp.
Proof.
  intros R. unfold unmarshal. generalize (dec_fuel (TPtr t) (VPtr old) inp). intros n H.
  destruct (decode_panic_mut n) as (K & _). refine (K _ _ _ _ _ _ H). split; [reflexivity|]. right. eauto.
Qed.
End Panic.

Lemma unmarshal_panic C (HC : customs_no_panic C) t old inp : ready t old -> unmarshal C t old inp = DPanic -> bad_length inp.
Proof. intros R H. destruct (unmarshal_blame C t old inp R H) as [B|(a & b & r & id & v & _ & U)]; [exact B|]. destruct (HC _ _ _ U). Qed.
