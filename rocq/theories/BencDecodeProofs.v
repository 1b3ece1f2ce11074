(** Soundness of the typed decoder: whatever it accepts is well-formed text. *)
From Verif Require Import GoBase GoBaseProofs Strconv StrconvProofs BencTypes BencFields BencEncode BencDecode BencDecodeEqs BencSpec BencSpecProofs BencConsumeProofs.
From Coq Require Import ZifyBool ZifyNat ZifyN Sorting.Sorted.

Lemma zlen_e : zlen ["e"%byte] = 1.
Proof. reflexivity. Qed.

Section Sound.
Variable C : customs.

Definition dec_post (inp : bytes) (off : Z) (rest : bytes) (off' : Z) : Prop :=
  exists bv out, lax_typed bv out /\ inp = out ++ rest /\ off' = off + zlen out.
Definition list_post (inp : bytes) (off : Z) (rest : bytes) (off' : Z) : Prop :=
  exists l ts, Forall2 lax_typed l ts /\ inp = concat ts ++ "e"%byte :: rest /\ off' = off + zlen (concat ts) + 1.
Definition dict_post (lk : bytes) (inp : bytes) (off : Z) (rest : bytes) (off' : Z) : Prop :=
  exists m ks ts, ascending (lk :: map fst m) /\ Forall2 lax_str (map fst m) ks /\ Forall2 lax_typed (map snd m) ts /\
       inp = dtext ks ts ++ "e"%byte :: rest /\ off' = off + zlen (dtext ks ts) + 1.

Lemma list_post_nil inp off : list_post ("e"%byte :: inp) off inp (off + 1).
Proof. exists [], []. cbn. repeat split; auto. rewrite Z.add_0_r. reflexivity. Qed.
Lemma list_post_cons inp off rest off' rest' off'' : dec_post inp off rest off' -> list_post rest off' rest' off'' -> list_post inp off rest' off''.
Proof.
  intros (bv & out & L & -> & ->) (l & ts & F & -> & ->). exists (bv :: l), (out :: ts).
  split; [constructor; assumption|]. cbn. rewrite <- app_assoc. split; [reflexivity|]. rewrite zlen_app. lia.
Qed.
Lemma dict_post_nil lk inp off : dict_post lk ("e"%byte :: inp) off inp (off + 1).
Proof. exists [], [], []. cbn. repeat split; auto; [|rewrite Z.add_0_r; reflexivity]. repeat constructor. Qed.
Lemma dict_post_cons lk key inp off ls rest off' rest' off'' rest3 off3 :
  read_str inp off = SOk ls key rest off' -> bytes_ltb lk key = true ->
  dec_post rest off' rest' off'' -> dict_post key rest' off'' rest3 off3 -> dict_post lk inp off rest3 off3.
Proof.
  intros R Lt (bv & out & L & -> & ->) (m & ks & ts & A & Fk & F & -> & ->).
  apply read_str_ok in R as (-> & Ls & ->).
  exists ((key, bv) :: m), ((ls ++ ":"%byte :: key) :: ks), (out :: ts). cbn [map fst snd].
  split; [|split; [constructor; assumption|split; [constructor; assumption|]]].
  - unfold ascending in *. constructor; [exact A|]. inversion A; subst. constructor; [exact Lt|].
    eapply Forall_impl; [|eassumption]. intros k Hk. eapply bytes_ltb_trans; eauto.
  - unfold dtext in *. cbn. repeat (rewrite <- app_assoc; cbn [app]). split; [reflexivity|].
    repeat rewrite ?zlen_app, ?zlen_cons. lia.
Qed.
Lemma dec_post_list inp off rest off' : list_post inp (off + 1) rest off' -> dec_post ("l"%byte :: inp) off rest off'.
Proof.
  intros (l & ts & F & -> & ->). exists (BList l), ("l"%byte :: concat ts ++ ["e"%byte]). split; [apply gram_list; exact F|].
  split; [cbn; rewrite <- app_assoc; reflexivity|]. rewrite zlen_cons, zlen_app, zlen_e. lia.
Qed.
Lemma dec_post_dict inp off rest off' : dict_post [] inp (off + 1) rest off' -> dec_post ("d"%byte :: inp) off rest off'.
Proof.
  intros (m & ks & ts & A & Fk & F & -> & ->). exists (BDict m), ("d"%byte :: dtext ks ts ++ ["e"%byte]). split; [apply gram_dict; assumption|].
  split; [cbn; rewrite <- app_assoc; reflexivity|]. rewrite zlen_cons, zlen_app, zlen_e. lia.
Qed.
Lemma dec_post_str inp off ls body rest off' : read_str inp off = SOk ls body rest off' -> dec_post inp off rest off'.
Proof.
  intros R. apply read_str_ok in R as (E & L & O). exists (BStr body). eexists. split; [apply gram_string; [exact L|auto]|]. auto.
Qed.
Lemma dec_post_int inp off txt rest z off' : read_int parse_int inp off = IOk txt rest z off' -> dec_post inp off rest off'.
Proof.
  intros R. apply read_int_ok in R as (E & P & N & O). exists (BInt z). eexists.
  split; [apply gram_int; [left; apply go_int_parse; exact P|exact N]|]. auto.
Qed.
Lemma dec_post_uint inp off txt rest z off' : read_int parse_uint inp off = IOk txt rest z off' -> dec_post inp off rest off'.
Proof.
  intros R. apply read_int_ok in R as (E & P & N & O). exists (BInt z). eexists.
  split; [apply gram_int; [right; split; [reflexivity|apply go_uint_parse; exact P]|exact N]|]. auto.
Qed.
Lemma dec_post_consume fuel inp off out rest off' : consume fuel inp off = COk out rest off' -> dec_post inp off rest off'.
Proof. intros R. apply consume_sound in R as (E & O & v & V). exists v, out. split; [apply lax_lax_typed; exact V|auto]. Qed.

Lemma unmarshaler_sound fuel id r fl old wr inp off v rest off' :
  dec_unmarshaler C fuel id r fl old wr inp off = DOk v rest off' -> dec_post inp off rest off'.
Proof.
  unfold dec_unmarshaler. destruct (fl_ro fl); [discriminate|].
  destruct (consume fuel inp off) as [out rest0 off0| | |] eqn:R; try discriminate.
  destruct (c_unmarsh C id r out); try discriminate. intros [= _ <- <-]. eapply dec_post_consume; eauto.
Qed.
Lemma dmap_ok f r v rest off : dmap f r = DOk v rest off -> exists v', r = DOk v' rest off /\ v = f v'.
Proof. destruct r; cbn; try discriminate. intros [= <- <- <-]. eauto. Qed.

Lemma decode_sound_mut fuel :
  (forall t fl old inp off v rest off', decode C fuel t fl old inp off = DOk v rest off' -> dec_post inp off rest off') /\
  (forall et fl pre post inp off v rest off', decode_slice C fuel et fl pre post inp off = DOk v rest off' -> list_post inp off rest off') /\
  (forall et fl pre post inp off v rest off', decode_array C fuel et fl pre post inp off = DOk v rest off' -> list_post inp off rest off') /\
  (forall et fl m lk inp off v rest off', decode_map C fuel et fl m lk inp off = DOk v rest off' -> dict_post lk inp off rest off') /\
  (forall t fl v0 lk inp off v rest off', decode_struct C fuel t fl v0 lk inp off = DOk v rest off' -> dict_post lk inp off rest off').
Proof.
  induction fuel as [|n (IHd & IHs & IHa & IHm & IHt)]; [repeat split; intros; discriminate|].
  split; [|split; [|split; [|split]]].
  - intros t fl old inp off v rest off'. rewrite decode_S.
    destruct (if negb (is_ptr t) && fl_addr fl then ptr_impl m_unmarsh t else None) as [id|]; [apply unmarshaler_sound|].
    destruct (impl m_unmarsh t) as [id|].
    { destruct t; try apply unmarshaler_sound. destruct old; apply unmarshaler_sound. }
    destruct (under t) as [|w|w| | |et|k et|kt et|nm fs| | |t'|i ms t'] eqn:U.
    + destruct (read_str inp off) eqn:R; try discriminate. destruct (settable fl); [|discriminate].
      intros [= _ <- <-]. eapply dec_post_str; eauto.
    + destruct (read_int parse_int inp off) eqn:R; try discriminate. destruct (settable fl); [|discriminate].
      intros [= _ <- <-]. eapply dec_post_int; eauto.
    + destruct (read_int parse_uint inp off) eqn:R; try discriminate. destruct (settable fl); [|discriminate].
      intros [= _ <- <-]. eapply dec_post_uint; eauto.
    + discriminate.
    + discriminate.
    + destruct (kind_uint8 et).
      * destruct (read_str inp off) eqn:R; try discriminate. destruct (settable fl); [|discriminate].
        intros [= _ <- <-]. eapply dec_post_str; eauto.
      * destruct inp as [|c inp]; [discriminate|]. destruct (beqb c "l"%byte) eqn:E; [|discriminate]. cbn [negb].
        apply beqb_eq in E. subst c.
        destruct old; try discriminate; [destruct (settable fl); [|discriminate]|]; intros H; apply IHs in H; apply dec_post_list; exact H.
    + destruct inp as [|c inp]; [discriminate|]. destruct (beqb c "l"%byte) eqn:E; [|discriminate]. cbn [negb].
      apply beqb_eq in E. subst c. destruct old; try discriminate. intros H; apply IHa in H; apply dec_post_list; exact H.
    + destruct inp as [|c inp]; [discriminate|]. destruct (beqb c "d"%byte) eqn:E; [|discriminate]. cbn [negb].
      apply beqb_eq in E. subst c. destruct (kind_string kt); [|discriminate]. cbn [negb].
      destruct old; try discriminate; [destruct (settable fl); [|discriminate]|]; intros H; apply IHm in H; apply dec_post_dict; exact H.
    + destruct inp as [|c inp]; [discriminate|]. destruct (beqb c "d"%byte) eqn:E; [|discriminate]. cbn [negb].
      apply beqb_eq in E. subst c. intros H; apply IHt in H; apply dec_post_dict; exact H.
    + destruct old; try discriminate.
      * destruct inp as [|c inp]; [discriminate|]. cbv zeta.
        destruct (if beqb c "i" then _ else _) as [dt|]; [|discriminate].
        destruct (decode C n dt fl_new (zero dt) (c :: inp) off) eqn:D; try discriminate. destruct (settable fl); [|discriminate].
        intros [= _ <- <-]. eapply IHd; eauto.
      * intros H. apply dmap_ok in H as (v' & H & _). eapply IHd; eauto.
    + destruct old; try discriminate. intros H. apply dmap_ok in H as (v' & H & _). eapply IHd; eauto.
    + destruct old; try discriminate. intros H. apply dmap_ok in H as (v' & H & _). eapply IHd; eauto.
    + discriminate.
  - intros et fl pre post inp off v rest off'. rewrite decode_slice_S. destruct inp as [|c inp]; [discriminate|].
    destruct (beqb c "e"%byte) eqn:E.
    + intros [= _ <- <-]. apply beqb_eq in E. subst c. apply list_post_nil.
    + destruct (match post with [] => _ | _ => _ end) as [[x post']|]; [|discriminate].
      destruct (decode C n et (fl_elem fl) x (c :: inp) off) eqn:D; try discriminate.
      intros H. apply IHs in H. apply IHd in D. eapply list_post_cons; eauto.
  - intros et fl pre post inp off v rest off'. rewrite decode_array_S. destruct inp as [|c inp]; [discriminate|].
    destruct (beqb c "e"%byte) eqn:E.
    + intros [= _ <- <-]. apply beqb_eq in E. subst c. apply list_post_nil.
    + destruct post as [|x post'].
      * destruct (consume n (c :: inp) off) eqn:D; try discriminate.
        intros H. apply IHa in H. apply dec_post_consume in D. eapply list_post_cons; eauto.
      * destruct (decode C n et fl x (c :: inp) off) eqn:D; try discriminate.
        intros H. apply IHa in H. apply IHd in D. eapply list_post_cons; eauto.
  - intros et fl m lk inp off v rest off'. rewrite decode_map_S. destruct inp as [|c inp]; [discriminate|].
    destruct (beqb c "e"%byte) eqn:E.
    + intros [= _ <- <-]. apply beqb_eq in E. subst c. apply dict_post_nil.
    + destruct (read_str (c :: inp) off) eqn:R; try discriminate.
      destruct (bytes_ltb lk body) eqn:Lt; [|discriminate]. cbn [negb].
      destruct (decode C n (TPtr et) fl_root_val (VPtr (zero et)) rest0 off0) as [x r o| | |] eqn:D; try discriminate.
      destruct x; try discriminate. destruct (fl_ro fl); [discriminate|].
      intros H. apply IHm in H. apply IHd in D. eapply dict_post_cons; eauto.
  - intros t fl v0 lk inp off v rest off'. rewrite decode_struct_S. destruct inp as [|c inp]; [discriminate|].
    destruct (beqb c "e"%byte) eqn:E.
    + intros [= _ <- <-]. apply beqb_eq in E. subst c. apply dict_post_nil.
    + destruct (read_str (c :: inp) off) eqn:R; try discriminate.
      destruct (bytes_ltb lk body) eqn:Lt; [|discriminate]. cbn [negb].
      destruct (assoc body (key_to_field t)) as [f|].
      * destruct (path_get (f_index f) t fl v0) as [[[ft ffl] x]|]; [|discriminate].
        destruct (decode C n ft ffl x rest0 off0) eqn:D; try discriminate.
        intros H. apply IHt in H. apply IHd in D. eapply dict_post_cons; eauto.
      * destruct (consume n rest0 off0) eqn:D; try discriminate.
        intros H. apply IHt in H. apply dec_post_consume in D. eapply dict_post_cons; eauto.
Qed.
Lemma decode_sound fuel t fl old inp off v rest off' :
  decode C fuel t fl old inp off = DOk v rest off' -> dec_post inp off rest off'.
Proof. apply (decode_sound_mut fuel). Qed.

Lemma decode_shrinks fuel t fl old inp off v rest off' :
  decode C fuel t fl old inp off = DOk v rest off' -> (List.length rest < List.length inp)%nat.
Proof.
  intros H. apply decode_sound in H as (bv & out & L & -> & _). apply gram_first_not_e in L as (c & t' & -> & _).
  cbn. rewrite app_length. lia.
Qed.

(** ** Decoding into [any] *)
Fixpoint any_of (v : bval) : gval :=
  match v with
  | BInt z => VIface (TInt WInt) (VInt z)
  | BStr s => VIface TStr (VStr s)
  | BList l => VIface any_slice (VSlice (map any_of l))
  | BDict m => VIface any_map (VMap (map (fun p => (fst p, any_of (snd p))) m))
  end.

Lemma assoc_set_fresh {A} k (v : A) m : ~ In k (map fst m) -> assoc_set k v m = m ++ [(k, v)].
Proof.
  induction m as [|[k' v'] m IH]; cbn; intros H; [reflexivity|].
  replace (bytes_eqb k k') with false by (symmetry; apply bytes_eqb_neq; intuition).
  rewrite IH by tauto. reflexivity.
Qed.

Lemma wrap_int64 z : is_int64 z = true -> wrap_s (iw_bits WInt) z = z.
Proof. intros H. apply wrap_s_small; cbn; [lia|]. unfold is_int64, min_int64, max_int64 in H. lia. Qed.
Lemma go_int_range z n : go_int z n -> is_int64 z = true.
Proof. intros (sg & ds & _ & _ & _ & _ & R). unfold is_int64, min_int64, max_int64. lia. Qed.

Lemma decode_any_sound_mut fuel :
  (forall fl inp off v rest off', decode C fuel TAny fl VNil inp off = DOk v rest off' ->
     settable fl = true /\ exists bv out, lax bv out /\ v = any_of bv /\ inp = out ++ rest /\ off' = off + zlen out) /\
  (forall fl inp off v rest off', decode C fuel any_slice fl VNil inp off = DOk v rest off' ->
     forall c inp', inp = c :: inp' -> c = "l"%byte ->
     exists bv out, lax bv out /\ VIface any_slice v = any_of bv /\ inp = out ++ rest /\ off' = off + zlen out) /\
  (forall fl inp off v rest off', decode C fuel any_map fl VNil inp off = DOk v rest off' ->
     forall c inp', inp = c :: inp' -> c = "d"%byte ->
     exists bv out, lax bv out /\ VIface any_map v = any_of bv /\ inp = out ++ rest /\ off' = off + zlen out) /\
  (forall fl pre inp off v rest off', decode_slice C fuel TAny fl pre [] inp off = DOk v rest off' ->
     exists l ts, Forall2 lax l ts /\ v = VSlice (pre ++ map any_of l) /\ inp = concat ts ++ "e"%byte :: rest /\ off' = off + zlen (concat ts) + 1) /\
  (forall fl m lk inp off v rest off', decode_map C fuel TAny fl m lk inp off = DOk v rest off' ->
     Forall (fun k => bytes_ltb k lk = true \/ k = lk) (map fst m) ->
     exists m' ks ts, ascending (lk :: map fst m') /\ Forall2 lax_str (map fst m') ks /\ Forall2 lax (map snd m') ts /\
       v = VMap (m ++ map (fun p => (fst p, any_of (snd p))) m') /\
       inp = dtext ks ts ++ "e"%byte :: rest /\ off' = off + zlen (dtext ks ts) + 1) /\
  (forall fl inp off v rest off', decode C fuel (TPtr TAny) fl (VPtr VNil) inp off = DOk v rest off' ->
     exists bv out, lax bv out /\ v = VPtr (any_of bv) /\ inp = out ++ rest /\ off' = off + zlen out).
Proof.
  induction fuel as [|n (IHd & IHs & IHm & IHsl & IHmp & IHp)]; [repeat split; intros; discriminate|].
  split; [|split; [|split; [|split; [|split]]]].
  - intros fl inp off v rest off'. rewrite decode_S. cbn [is_ptr under negb andb ptr_impl impl].
    assert ((if fl_addr fl then None else None) = @None nat) as -> by (destruct (fl_addr fl); reflexivity).
    destruct inp as [|c inp]; [discriminate|].
    destruct (beqb c "i"%byte) eqn:Ei.
    { destruct (decode C n (TInt WInt) fl_new (zero (TInt WInt)) (c :: inp) off) eqn:D; try discriminate.
      destruct (settable fl); [|discriminate]. intros [= <- <- <-]. split; [reflexivity|].
      destruct n as [|n']; [discriminate|]. rewrite decode_S in D. cbn [is_ptr under negb andb ptr_impl impl fl_addr fl_new] in D.
      destruct (read_int parse_int (c :: inp) off) eqn:R; [|discriminate]. change (settable fl_new) with true in D. cbn iota in D. injection D as <- <- <-.
      apply read_int_ok in R as (E & P & N & O). apply go_int_parse in P. exists (BInt z). eexists.
      split; [apply gram_int; [left; exact P|exact N]|]. split; [|auto]. cbn [any_of]. rewrite wrap_int64; [reflexivity|]. eapply go_int_range; eauto. }
    destruct (beqb c "l"%byte) eqn:El.
    { apply beqb_eq in El. subst c.
      destruct (decode C n any_slice fl_new (zero any_slice) ("l"%byte :: inp) off) eqn:D; try discriminate.
      destruct (settable fl); [|discriminate]. intros [= <- <- <-]. split; [reflexivity|].
      eapply IHs in D as (bv & out & L & E & K); try reflexivity. exists bv, out. auto. }
    destruct (beqb c "d"%byte) eqn:Ed.
    { apply beqb_eq in Ed. subst c.
      destruct (decode C n any_map fl_new (zero any_map) ("d"%byte :: inp) off) eqn:D; try discriminate.
      destruct (settable fl); [|discriminate]. intros [= <- <- <-]. split; [reflexivity|].
      eapply IHm in D as (bv & out & L & E & K); try reflexivity. exists bv, out. auto. }
    destruct (is_digit c) eqn:Dg; [|discriminate].
    destruct (decode C n TStr fl_new (zero TStr) (c :: inp) off) eqn:D; try discriminate.
    destruct (settable fl); [|discriminate]. intros [= <- <- <-]. split; [reflexivity|].
    destruct n as [|n']; [discriminate|]. rewrite decode_S in D. cbn [is_ptr under negb andb ptr_impl impl fl_addr fl_new] in D.
    destruct (read_str (c :: inp) off) eqn:R; try discriminate. change (settable fl_new) with true in D. cbn iota in D. injection D as <- <- <-.
    apply read_str_ok in R as (E & L & O). exists (BStr body). eexists.
    split; [apply gram_string; [exact L|]|auto]. right. destruct lenstr as [|c' ls]; cbn in E; injection E as -> E.
    + exists ":"%byte. eexists. split; [reflexivity|exact Dg].
    + exists c'. eexists. split; [reflexivity|exact Dg].
  - intros fl inp off v rest off' H c inp' -> ->. rewrite decode_S in H. cbn [is_ptr under negb andb ptr_impl impl any_slice kind_uint8] in H.
    assert ((if fl_addr fl then None else None) = @None nat) as EE by (destruct (fl_addr fl); reflexivity). rewrite EE in H.
    change (beqb "l" "l") with true in H. cbn [negb] in H. destruct (settable fl); [|discriminate].
    apply IHsl in H as (l & ts & F & -> & -> & ->). exists (BList l), ("l"%byte :: concat ts ++ ["e"%byte]).
    split; [apply gram_list; exact F|]. split; [reflexivity|]. split; [cbn; rewrite <- app_assoc; reflexivity|].
    rewrite zlen_cons, zlen_app, zlen_e. lia.
  - intros fl inp off v rest off' H c inp' -> ->. rewrite decode_S in H. cbn [is_ptr under negb andb ptr_impl impl any_map kind_string] in H.
    assert ((if fl_addr fl then None else None) = @None nat) as EE by (destruct (fl_addr fl); reflexivity). rewrite EE in H.
    change (beqb "d" "d") with true in H. cbn [negb] in H. destruct (settable fl); [|discriminate].
    apply IHmp in H as (m & ks & ts & A & Fk & F & -> & -> & ->); [|constructor].
    exists (BDict m), ("d"%byte :: dtext ks ts ++ ["e"%byte]).
    split; [apply gram_dict; assumption|]. split; [reflexivity|]. split; [cbn; rewrite <- app_assoc; reflexivity|].
    rewrite zlen_cons, zlen_app, zlen_e. lia.
  - intros fl pre inp off v rest off'. rewrite decode_slice_S. destruct inp as [|c inp]; [discriminate|].
    destruct (beqb c "e"%byte) eqn:E.
    + intros [= <- <- <-]. apply beqb_eq in E. subst c. exists [], []. cbn. repeat split; auto. rewrite Z.add_0_r. reflexivity.
    + destruct (settable fl) eqn:S; [|discriminate]. cbn [zero].
      destruct (decode C n TAny (fl_elem fl) VNil (c :: inp) off) eqn:D; try discriminate.
      intros H. apply IHd in D as (_ & bv & out & L & -> & Ei & ->). apply IHsl in H as (l & ts & F & -> & -> & ->).
      exists (bv :: l), (out :: ts). split; [constructor; assumption|]. cbn. rewrite <- !app_assoc.
      split; [reflexivity|]. split; [exact Ei|]. rewrite zlen_app. lia.
  - intros fl m lk inp off v rest off'. rewrite decode_map_S. destruct inp as [|c inp]; [discriminate|].
    destruct (beqb c "e"%byte) eqn:E.
    + intros [= <- <- <-] _. apply beqb_eq in E. subst c. exists [], [], []. cbn. rewrite app_nil_r. repeat split; auto; [|rewrite Z.add_0_r; reflexivity].
      repeat constructor.
    + destruct (read_str (c :: inp) off) eqn:R; try discriminate.
      destruct (bytes_ltb lk body) eqn:Lt; [|discriminate]. cbn [negb zero].
      destruct (decode C n (TPtr TAny) fl_root_val (VPtr VNil) rest0 off0) as [x r o| | |] eqn:D; try discriminate.
      apply IHp in D as (bv & out & L & -> & -> & ->). destruct (fl_ro fl); [discriminate|].
      intros H Fl. assert (~ In body (map fst m)) as N.
      { intros Hi. rewrite Forall_forall in Fl. destruct (Fl _ Hi) as [K| ->].
        - apply bytes_ltb_asym in K. congruence.
        - rewrite bytes_ltb_irrefl in Lt. discriminate. }
      rewrite assoc_set_fresh in H by exact N.
      apply IHmp in H as (m' & ks & ts & A & Fk & F & -> & -> & ->).
      2:{ rewrite map_app. apply Forall_app. split; [|constructor; [right; reflexivity|constructor]].
          eapply Forall_impl; [|exact Fl]. cbn. intros k [K| ->]; left; [eapply bytes_ltb_trans; eauto|exact Lt]. }
      apply read_str_ok in R as (E' & Ls & ->). rewrite E'.
      exists ((body, bv) :: m'), ((lenstr ++ ":"%byte :: body) :: ks), (out :: ts). cbn [map fst snd].
      split; [|split; [constructor; assumption|split; [constructor; assumption|]]].
      * unfold ascending in *. constructor; [exact A|]. inversion A; subst. constructor; [exact Lt|].
        eapply Forall_impl; [|eassumption]. intros k Hk. eapply bytes_ltb_trans; eauto.
      * split; [rewrite <- app_assoc; reflexivity|]. unfold dtext in *. cbn. repeat (rewrite <- app_assoc; cbn [app]).
        split; [reflexivity|]. repeat rewrite ?zlen_app, ?zlen_cons. lia.
  - intros fl inp off v rest off'. rewrite decode_S. cbn [is_ptr under negb andb ptr_impl impl]. intros H.
    apply dmap_ok in H as (v' & H & ->). apply IHd in H as (_ & bv & out & L & -> & E & O). exists bv, out. auto.
Qed.

Lemma decode_any_complete v : forall t, lax v t -> forall fuel fl rest off, settable fl = true ->
  (4 * List.length t + 2 <= fuel)%nat ->
  decode C fuel TAny fl VNil (t ++ rest) off = DOk (any_of v) rest (off + zlen t).
Proof.
  induction v as [z|s|l IHl|m IHm] using bval_ind'; intros t H fuel fl rest off Sf Hf.
  all: destruct fuel as [|fuel]; [lia|]; rewrite decode_S; cbn [is_ptr under negb andb ptr_impl impl].
  all: assert ((if fl_addr fl then None else None) = @None nat) as -> by (destruct (fl_addr fl); reflexivity).
  - inversion H as [z0 n Hz Hp| | |]; subst. cbn [app]. rewrite beqb_refl.
    destruct Hz as [Hz|[[=] _]]. change ("i"%byte :: (n ++ ["e"%byte]) ++ rest) with (("i"%byte :: n ++ ["e"%byte]) ++ rest).
    destruct fuel as [|fuel]; [cbn in Hf; lia|]. rewrite decode_S. cbn [is_ptr under negb andb ptr_impl impl fl_addr fl_new].
    rewrite (read_int_lax parse_int n rest z); [|apply (go_int_chars _ _ Hz)|apply go_int_parse; exact Hz|exact Hp].
    change (settable fl_new) with true. cbn iota. rewrite Sf, wrap_int64 by (eapply go_int_range; eauto). reflexivity.
  - inversion H as [|s0 t0 Hs Ht| |]; subst. destruct Ht as [[=]|(c & t' & -> & Dg)].
    cbn [app]. rewrite !(digit_not c) by (auto || reflexivity). rewrite Dg.
    destruct fuel as [|fuel]; [cbn in Hf; lia|]. rewrite decode_S. cbn [is_ptr under negb andb ptr_impl impl fl_addr fl_new].
    destruct (read_str_lax _ _ rest off Hs) as (ls & Et & R). cbn [app] in R. rewrite R.
    change (settable fl_new) with true. cbn iota. rewrite Sf. reflexivity.
  - inversion H as [| |l0 ts Hts|]; subst. clear H. cbn [app].
    change (beqb "l" "i") with false. change (beqb "l" "l") with true. cbv iota.
    destruct fuel as [|fuel]; [cbn in Hf; lia|]. rewrite decode_S. cbn [zero any_slice is_ptr under negb andb ptr_impl impl fl_addr fl_new kind_uint8].
    change (beqb "l" "l") with true. change (settable fl_new) with true. cbn [negb]. cbv iota.
    assert (forall pre fuel off, (4 * List.length (concat ts) + 3 <= fuel)%nat ->
       decode_slice C fuel TAny fl_new pre [] (concat ts ++ "e"%byte :: rest) off =
       DOk (VSlice (pre ++ map any_of l)) rest (off + zlen (concat ts) + 1)) as K.
    { clear fuel off Hf. induction Hts as [|v t l ts Hv Hts IH]; intros pre fuel off Hf; (destruct fuel as [|fuel]; [cbn in Hf; lia|]).
      - rewrite decode_slice_S; cbn [app concat map]. rewrite beqb_refl. change (zlen (@nil byte)) with 0. rewrite Z.add_0_r. reflexivity.
      - rewrite decode_slice_S; cbn [concat]. inversion IHl as [|v0 l0 Hv0 Hl0]; subst.
        cbn [concat] in Hf. rewrite app_length in Hf.
        destruct (gram_first_not_e _ _ _ _ Hv) as (c & t' & -> & N). cbn [app List.length] in *.
        replace (beqb c "e"%byte) with false by (symmetry; apply beqb_neq; exact N).
        change (c :: (t' ++ concat ts) ++ "e"%byte :: rest) with (((c :: t') ++ concat ts) ++ "e"%byte :: rest).
        rewrite <- app_assoc. change (settable fl_new) with true. cbv iota. cbn [zero].
        rewrite Hv0 by (auto; cbn [List.length]; lia).
        rewrite IH by (auto; lia). f_equal.
        + rewrite <- app_assoc. reflexivity.
        + repeat rewrite ?zlen_app, ?zlen_cons in *. lia. }
    rewrite <- app_assoc. cbn [app]. rewrite K by (cbn [List.length] in Hf; rewrite app_length in Hf; cbn in Hf; lia).
    rewrite Sf. cbn [app any_of]. f_equal. rewrite zlen_cons, zlen_app, zlen_e. lia.
  - inversion H as [| | |m0 ks ts Hm Hks Hts]; subst. clear H. cbn [app].
    change (beqb "d" "i") with false. change (beqb "d" "l") with false. change (beqb "d" "d") with true. cbv iota.
    destruct fuel as [|fuel]; [cbn in Hf; lia|]. rewrite decode_S. cbn [zero any_map is_ptr under negb andb ptr_impl impl fl_addr fl_new kind_string].
    change (beqb "d" "d") with true. change (settable fl_new) with true. cbn [negb]. cbv iota.
    fold (dtext ks ts) in *.
    assert (forall m0 lk fuel off, ascending (lk :: map fst m) -> Forall (fun k => bytes_ltb k lk = true \/ k = lk) (map fst m0) ->
       (4 * List.length (dtext ks ts) + 3 <= fuel)%nat ->
       decode_map C fuel TAny fl_new m0 lk (dtext ks ts ++ "e"%byte :: rest) off =
       DOk (VMap (m0 ++ map (fun p => (fst p, any_of (snd p))) m)) rest (off + zlen (dtext ks ts) + 1)) as K.
    { clear fuel off Hf Hm. revert ks Hks ts Hts. induction m as [|[k v] m IH]; intros ks Hks ts Hts m0 lk fuel off As Fl Hf;
        (destruct fuel as [|fuel]; [cbn in Hf; lia|]); inversion Hks as [|k0 kt mk ks' Hk Hks']; subst; inversion Hts as [|v0 t mv ts' Hv Hts']; subst.
      - unfold dtext. rewrite decode_map_S; cbn [app combine map concat]. rewrite beqb_refl. change (zlen (@nil byte)) with 0. rewrite Z.add_0_r, app_nil_r. reflexivity.
      - cbn [fst] in *. cbn [snd] in *. inversion IHm as [|p0 m1 IHv IHm']; subst. cbn [snd] in IHv.
        assert (dtext (kt :: ks') (t :: ts') = kt ++ t ++ dtext ks' ts') as ED by (unfold dtext; cbn; rewrite <- app_assoc; reflexivity).
        rewrite ED in *. rewrite !app_length in Hf. rewrite decode_map_S.
        destruct (lax_str_nonneg _ _ Hk) as (c & kt' & Ekt & Nc).
        destruct (read_str_lax k kt ((t ++ dtext ks' ts') ++ "e"%byte :: rest) off Hk) as (ls & Els & R).
        assert ((kt ++ t ++ dtext ks' ts') ++ "e"%byte :: rest = kt ++ (t ++ dtext ks' ts') ++ "e"%byte :: rest) as EA by (rewrite <- app_assoc; reflexivity).
        rewrite EA. rewrite Ekt at 1. cbn [app].
        replace (beqb c "e"%byte) with false by (symmetry; apply beqb_neq; intros ->; discriminate).
        rewrite R. cbn [map fst] in As. inversion As as [|a b As' Fa]; subst a b. inversion Fa as [|a b Lt Fa']; subst a b.
        rewrite Lt. cbn [negb zero]. rewrite <- app_assoc.
        assert (1 <= List.length kt)%nat by (rewrite Ekt; cbn; lia).
        destruct fuel as [|fuel]; [lia|]. rewrite decode_S. cbn [is_ptr under negb andb ptr_impl impl].
        rewrite IHv by (auto; lia). cbn [dmap]. change (fl_ro fl_new) with false. cbv iota.
        assert (~ In k (map fst m0)) as N.
        { intros Hi. rewrite Forall_forall in Fl. destruct (Fl _ Hi) as [K| ->].
          - apply bytes_ltb_asym in K. congruence.
          - rewrite bytes_ltb_irrefl in Lt. discriminate. }
        rewrite assoc_set_fresh by exact N.
        rewrite IH; auto; [|rewrite map_app; apply Forall_app; split; [|constructor; [right; reflexivity|constructor]]|lia].
        + f_equal; [rewrite <- app_assoc; reflexivity|]. rewrite !zlen_app. lia.
        + eapply Forall_impl; [|exact Fl]. cbn. intros k' [K| ->]; left; [eapply bytes_ltb_trans; eauto|exact Lt]. }
    rewrite <- app_assoc. cbn [app]. rewrite K; [|exact Hm|constructor|cbn [List.length] in Hf; rewrite app_length in Hf; cbn in Hf; lia].
    rewrite Sf. cbn [app any_of]. f_equal. rewrite zlen_cons, zlen_app, zlen_e. lia.
Qed.
End Sound.
