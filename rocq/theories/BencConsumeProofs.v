(** The skipping and capturing half of the decoder accepts exactly [lax]. *)
From Verif Require Import GoBase GoBaseProofs Strconv StrconvProofs BencTypes BencFields BencEncode BencDecode BencSpec BencSpecProofs.
From Coq Require Import ZifyBool ZifyNat ZifyN Sorting.Sorted.

Lemma read_until_some d s a b : read_until d s = Some (a, b) -> s = a ++ d :: b /\ ~ In d a.
Proof.
  revert a; induction s as [|c s IH]; intros a; cbn; [discriminate|].
  destruct (beqb c d) eqn:E.
  - intros [= <- <-]. apply beqb_eq in E. subst. cbn. auto.
  - destruct (read_until d s) as [[a' b']|] eqn:F; [|discriminate]. intros [= <- <-].
    destruct (IH _ eq_refl) as [-> N]. split; [reflexivity|]. cbn. apply beqb_neq in E. intuition.
Qed.
Lemma read_until_app d a b : ~ In d a -> read_until d (a ++ d :: b) = Some (a, b).
Proof.
  induction a as [|c a IH]; intros N; cbn.
  - rewrite beqb_refl. reflexivity.
  - cbn in N. replace (beqb c d) with false by (symmetry; apply beqb_neq; intuition).
    rewrite IH by tauto. reflexivity.
Qed.

Lemma not_in_num d n : num_char d = false -> forallb num_char n = true -> ~ In d n.
Proof. intros Hd Hn Hi. rewrite forallb_forall in Hn. rewrite (Hn _ Hi) in Hd. discriminate. Qed.

Lemma read_str_ok inp off ls body rest off' : read_str inp off = SOk ls body rest off' ->
  inp = (ls ++ ":"%byte :: body) ++ rest /\ lax_str body (ls ++ ":"%byte :: body) /\
  off' = off + zlen (ls ++ ":"%byte :: body).
Proof.
  unfold read_str. destruct (read_until ":"%byte inp) as [[ls' rest']|] eqn:E; [|discriminate].
  destruct (atoi ls') as [n|] eqn:A; [|discriminate].
  destruct (make_ok n) eqn:M; [|discriminate]. cbn [negb].
  destruct (zlen rest' <? n) eqn:L; [discriminate|]. intros [= <- <- <- <-].
  apply read_until_some in E as [-> _].
  unfold make_ok, max_alloc in M.
  assert (zlen (firstn (Z.to_nat n) rest') = n) as Z1.
  { unfold zlen in *. rewrite firstn_length. lia. }
  split; [rewrite <- app_assoc; cbn; rewrite firstn_skipn; reflexivity|]. split.
  - exists ls'. rewrite Z1. split; [apply go_int_parse; exact A|]. split; [lia|reflexivity].
  - rewrite zlen_app, zlen_cons, Z1. lia.
Qed.
Lemma read_str_lax s t rest off : lax_str s t ->
  exists ls, t = ls ++ ":"%byte :: s /\ read_str (t ++ rest) off = SOk ls s rest (off + zlen t).
Proof.
  intros (n & Hn & L & ->). exists n. split; [reflexivity|]. unfold read_str.
  rewrite <- app_assoc. cbn [app]. rewrite read_until_app.
  2:{ apply not_in_num; [reflexivity|]. apply (go_int_chars _ _ Hn). }
  apply go_int_parse in Hn. unfold atoi. rewrite Hn. pose proof (zlen_nonneg s).
  replace (make_ok (zlen s)) with true by (unfold make_ok, max_alloc; lia). cbn [negb].
  replace (zlen (s ++ rest) <? zlen s) with false by (rewrite zlen_app; pose proof (zlen_nonneg rest); lia).
  rewrite firstn_zlen_app, skipn_zlen_app. f_equal. rewrite zlen_app, zlen_cons. lia.
Qed.

Lemma leading_zero_spec n : leading_zero n = true <-> zero_padded n.
Proof.
  unfold zero_padded. destruct n as [|c n]; cbn.
  - split; [discriminate|]. intros [(? & ? & [=])|(? & [=])].
  - destruct (beqb c "0"%byte) eqn:E.
    + apply beqb_eq in E. subst. destruct n as [|c' n]; split; try discriminate; try reflexivity.
      * intros [(? & ? & [=])|(? & [=])].
      * intros _. left. eauto.
    + destruct (beqb c "-"%byte) eqn:F.
      * apply beqb_eq in F. subst. destruct n as [|c' n]; [split; [discriminate|intros [(? & ? & [=])|(? & [=])]]|].
        split.
        -- intros G. apply beqb_eq in G. subst. right. eauto.
        -- intros [(? & ? & [=])|(? & [= -> _])]. apply beqb_refl.
      * split; [discriminate|]. apply beqb_neq in E, F. intros [(? & ? & [=])|(? & [=])]; congruence.
Qed.

Lemma read_int_ok (parse : bytes -> option Z) inp off txt rest z off' : read_int parse inp off = IOk txt rest z off' ->
  inp = ("i"%byte :: txt ++ ["e"%byte]) ++ rest /\ parse txt = Some z /\ ~ zero_padded txt /\
  off' = off + zlen ("i"%byte :: txt ++ ["e"%byte]).
Proof.
  unfold read_int. destruct inp as [|c inp]; [discriminate|].
  destruct (beqb c "i"%byte) eqn:E; [|discriminate]. cbn [negb]. apply beqb_eq in E. subst c.
  destruct (read_until "e"%byte inp) as [[a b]|] eqn:R; [|discriminate].
  destruct (leading_zero a) eqn:L; [discriminate|].
  destruct (parse a) as [z'|] eqn:P; [|discriminate]. intros [= <- <- <- <-].
  apply read_until_some in R as [-> _]. split; [cbn; rewrite <- app_assoc; reflexivity|]. split; [exact P|].
  split; [rewrite <- leading_zero_spec; congruence|]. rewrite zlen_cons, zlen_app. change (zlen ["e"%byte]) with 1. lia.
Qed.
Lemma read_int_lax (parse : bytes -> option Z) txt rest z off : forallb num_char txt = true -> parse txt = Some z -> ~ zero_padded txt ->
  read_int parse (("i"%byte :: txt ++ ["e"%byte]) ++ rest) off =
  IOk txt rest z (off + zlen ("i"%byte :: txt ++ ["e"%byte])).
Proof.
  intros C P Z. unfold read_int. cbn [app]. rewrite beqb_refl. cbn [negb]. rewrite <- app_assoc. cbn [app].
  rewrite read_until_app by (apply not_in_num; [reflexivity|exact C]).
  replace (leading_zero txt) with false by (symmetry; destruct (leading_zero txt) eqn:E; [apply leading_zero_spec in E; tauto|reflexivity]).
  rewrite P. f_equal. rewrite zlen_cons, zlen_app. change (zlen ["e"%byte]) with 1. lia.
Qed.

(** Text of a dictionary body. *)
Definition dtext (ks ts : list bytes) : bytes := concat (map (fun kt => fst kt ++ snd kt) (combine ks ts)).

(** *** Soundness *)
Lemma consume_sound_mut fuel :
  (forall inp off out rest off', consume fuel inp off = COk out rest off' ->
     inp = out ++ rest /\ off' = off + zlen out /\ exists v, lax v out) /\
  (forall out0 inp off out rest off', consume_list fuel out0 inp off = COk out rest off' ->
     exists l ts, Forall2 lax l ts /\ out = out0 ++ concat ts ++ ["e"%byte] /\
       inp = concat ts ++ "e"%byte :: rest /\ off' = off + zlen (concat ts) + 1) /\
  (forall out0 lk inp off out rest off', consume_dict fuel out0 lk inp off = COk out rest off' ->
     exists m ks ts, ascending (lk :: map fst m) /\ Forall2 lax_str (map fst m) ks /\ Forall2 lax (map snd m) ts /\
       out = out0 ++ dtext ks ts ++ ["e"%byte] /\
       inp = dtext ks ts ++ "e"%byte :: rest /\ off' = off + zlen (dtext ks ts) + 1).
Proof.
  induction fuel as [|n (IHc & IHl & IHd)]; [repeat split; intros; discriminate|].
  split; [|split].
  - intros inp off out rest off'. cbn [consume]. destruct inp as [|c inp']; [discriminate|].
    destruct (beqb c "i"%byte) eqn:Ei.
    { destruct (read_int parse_int (c :: inp') off) as [txt rest0 z off0|] eqn:R; [|discriminate]. intros [= <- <- <-].
      apply read_int_ok in R as (E & P & Z & O). split; [exact E|]. split; [exact O|]. exists (BInt z).
      apply gram_int; [left; apply go_int_parse; exact P|exact Z]. }
    destruct (beqb c "l"%byte) eqn:El.
    { intros H. apply IHl in H as (l & ts & F & Eo & Ei' & Ef). apply beqb_eq in El. subst c out inp' off'.
      split; [cbn; rewrite <- app_assoc; reflexivity|]. split.
      - cbn [app]. rewrite zlen_cons, zlen_app. change (zlen ["e"%byte]) with 1. lia.
      - exists (BList l). apply gram_list. exact F. }
    destruct (beqb c "d"%byte) eqn:Ed.
    { intros H. apply IHd in H as (m & ks & ts & A & Fk & F & Eo & Ei' & Ef). apply beqb_eq in Ed. subst c out inp' off'.
      split; [cbn; rewrite <- app_assoc; reflexivity|]. split.
      - cbn [app]. rewrite zlen_cons, zlen_app. change (zlen ["e"%byte]) with 1. lia.
      - exists (BDict m). apply gram_dict; assumption. }
    destruct (is_digit c) eqn:Dg; [|discriminate].
    destruct (read_str (c :: inp') off) as [ls body rest0 off0| |] eqn:R; try discriminate. intros [= <- <- <-].
    apply read_str_ok in R as (E & L & O). split; [exact E|]. split; [exact O|]. exists (BStr body).
    apply gram_string; [exact L|]. right. destruct ls as [|c' ls]; cbn in E; injection E as -> E.
    + exists ":"%byte. eexists. split; [reflexivity|exact Dg].
    + exists c'. eexists. split; [reflexivity|exact Dg].
  - intros out0 inp off out rest off'. cbn [consume_list]. destruct inp as [|c inp']; [discriminate|].
    destruct (beqb c "e"%byte) eqn:Ee.
    + intros [= <- <- <-]. apply beqb_eq in Ee. subst c. exists [], []. cbn. repeat split; auto. rewrite Z.add_0_r. reflexivity.
    + destruct (consume n (c :: inp') off) as [o rest0 off0| | |] eqn:R; try discriminate. intros H.
      apply IHc in R as (E & O & v & V). apply IHl in H as (l & ts & F & Eo & Ei' & Ef).
      exists (v :: l), (o :: ts). split; [constructor; assumption|]. subst. cbn. rewrite <- !app_assoc.
      split; [reflexivity|]. split; [exact E|]. rewrite zlen_app. lia.
  - intros out0 lk inp off out rest off'. cbn [consume_dict]. destruct inp as [|c inp']; [discriminate|].
    destruct (beqb c "e"%byte) eqn:Ee.
    + intros [= <- <- <-]. apply beqb_eq in Ee. subst c. exists [], [], []. cbn. repeat split; auto; [|rewrite Z.add_0_r; reflexivity].
      repeat constructor.
    + destruct (read_str (c :: inp') off) as [ls key rest0 off0| |] eqn:S; try discriminate.
      destruct (bytes_ltb lk key) eqn:Lt; [|discriminate]. cbn [negb].
      destruct (consume n rest0 off0) as [o rest1 off1| | |] eqn:R; try discriminate. intros H.
      apply read_str_ok in S as (E & L & O).
      apply IHc in R as (E1 & O1 & v & V). apply IHd in H as (m & ks & ts & A & Fk & F & Eo & Ei' & Ef).
      exists ((key, v) :: m), ((ls ++ ":"%byte :: key) :: ks), (o :: ts). cbn [map fst snd].
      split; [|split; [constructor; assumption|split; [constructor; assumption|]]].
      * unfold ascending in *. constructor; [exact A|]. inversion A; subst. constructor; [exact Lt|].
        eapply Forall_impl; [|eassumption]. intros k Hk. eapply bytes_ltb_trans; eauto.
      * unfold dtext in *. cbn. subst. repeat rewrite <- app_assoc. cbn. repeat rewrite <- app_assoc.
        split; [reflexivity|]. split.
        -- rewrite E. repeat rewrite <- app_assoc. cbn. reflexivity.
        -- repeat rewrite ?zlen_app, ?zlen_cons in *. lia.
Qed.

Lemma consume_sound fuel inp off out rest off' : consume fuel inp off = COk out rest off' ->
  inp = out ++ rest /\ off' = off + zlen out /\ exists v, lax v out.
Proof. apply (consume_sound_mut fuel). Qed.

(** *** Completeness *)
Lemma consume_complete v : forall t, lax v t -> forall fuel rest off, (2 * List.length t + 1 <= fuel)%nat ->
  consume fuel (t ++ rest) off = COk t rest (off + zlen t).
Proof.
  induction v as [z|s|l IHl|m IHm] using bval_ind'; intros t H fuel rest off Hf.
  - inversion H as [z0 n Hz Hp| | |]; subst. destruct fuel as [|fuel]; [lia|]. cbn [consume app]. rewrite beqb_refl.
    destruct Hz as [Hz|[[=] _]]. change ("i"%byte :: (n ++ ["e"%byte]) ++ rest) with (("i"%byte :: n ++ ["e"%byte]) ++ rest).
    rewrite (read_int_lax parse_int n rest z); [reflexivity|apply (go_int_chars _ _ Hz)|apply go_int_parse; exact Hz|exact Hp].
  - inversion H as [|s0 t0 Hs Ht| |]; subst. destruct Ht as [[=]|(c & t' & -> & Dg)].
    destruct fuel as [|fuel]; [lia|]. cbn [consume app].
    rewrite !(digit_not c) by (auto || reflexivity). rewrite Dg.
    destruct (read_str_lax _ _ rest off Hs) as (ls & Et & R). cbn [app] in R. rewrite R, <- Et. reflexivity.
  - inversion H as [| |l0 ts Hts|]; subst. clear H. destruct fuel as [|fuel]; [lia|]. cbn [consume app].
    change (beqb "l" "i") with false. change (beqb "l" "l") with true. cbv iota.
    assert (forall out0 fuel off, (2 * List.length (concat ts) + 2 <= fuel)%nat ->
       consume_list fuel out0 (concat ts ++ "e"%byte :: rest) off =
       COk (out0 ++ concat ts ++ ["e"%byte]) rest (off + zlen (concat ts) + 1)) as K.
    { clear fuel off Hf. induction Hts as [|v t l ts Hv Hts IH]; intros out0 fuel off Hf; (destruct fuel as [|fuel]; [cbn in Hf; lia|]).
      - cbn [consume_list app concat]. rewrite beqb_refl. change (zlen (@nil byte)) with 0. rewrite Z.add_0_r. reflexivity.
      - cbn [consume_list concat]. inversion IHl as [|v0 l0 Hv0 Hl0]; subst.
        cbn [concat] in Hf. rewrite app_length in Hf.
        destruct (gram_first_not_e _ _ _ _ Hv) as (c & t' & -> & N). cbn [app List.length] in *.
        replace (beqb c "e"%byte) with false by (symmetry; apply beqb_neq; exact N).
        change (c :: (t' ++ concat ts) ++ "e"%byte :: rest) with (((c :: t') ++ concat ts) ++ "e"%byte :: rest).
        rewrite <- app_assoc. rewrite Hv0 by (auto; cbn [List.length]; lia).
        rewrite IH by (auto; lia). f_equal.
        + repeat (rewrite <- app_assoc; cbn [app]). reflexivity.
        + repeat rewrite ?zlen_app, ?zlen_cons in *. lia. }
    rewrite <- app_assoc. cbn [app]. rewrite K by (cbn [List.length] in Hf; rewrite app_length in Hf; cbn in Hf; lia).
    cbn [app]. f_equal. rewrite zlen_cons, zlen_app. change (zlen ["e"%byte]) with 1. lia.
  - inversion H as [| | |m0 ks ts Hm Hks Hts]; subst. clear H. destruct fuel as [|fuel]; [lia|]. cbn [consume app].
    change (beqb "d" "i") with false. change (beqb "d" "l") with false. change (beqb "d" "d") with true. cbv iota.
    fold (dtext ks ts) in *.
    assert (forall out0 lk fuel off, ascending (lk :: map fst m) -> (2 * List.length (dtext ks ts) + 2 <= fuel)%nat ->
       consume_dict fuel out0 lk (dtext ks ts ++ "e"%byte :: rest) off =
       COk (out0 ++ dtext ks ts ++ ["e"%byte]) rest (off + zlen (dtext ks ts) + 1)) as K.
    { clear fuel off Hf Hm. revert ks Hks ts Hts. induction m as [|[k v] m IH]; intros ks Hks ts Hts out0 lk fuel off As Hf;
        (destruct fuel as [|fuel]; [cbn in Hf; lia|]); inversion Hks as [|k0 kt mk ks' Hk Hks']; subst; inversion Hts as [|v0 t mv ts' Hv Hts']; subst.
      - unfold dtext. cbn [consume_dict app combine map concat]. rewrite beqb_refl. change (zlen (@nil byte)) with 0. rewrite Z.add_0_r. reflexivity.
      - cbn [fst] in *. cbn [snd] in *. inversion IHm as [|p0 m0 IHv IHm']; subst. cbn [snd] in IHv.
        assert (dtext (kt :: ks') (t :: ts') = kt ++ t ++ dtext ks' ts') as ED by (unfold dtext; cbn; rewrite <- app_assoc; reflexivity).
        rewrite ED in *. rewrite !app_length in Hf. cbn [consume_dict].
        destruct (lax_str_nonneg _ _ Hk) as (c & kt' & Ekt & Nc).
        destruct (read_str_lax k kt ((t ++ dtext ks' ts') ++ "e"%byte :: rest) off Hk) as (ls & Els & R).
        assert ((kt ++ t ++ dtext ks' ts') ++ "e"%byte :: rest = kt ++ (t ++ dtext ks' ts') ++ "e"%byte :: rest) as EA by (rewrite <- app_assoc; reflexivity).
        rewrite EA. rewrite Ekt at 1. cbn [app].
        replace (beqb c "e"%byte) with false by (symmetry; apply beqb_neq; intros ->; discriminate).
        rewrite R. cbn [map fst] in As. inversion As as [|a b As' Fa]; subst a b. inversion Fa as [|a b Lt Fa']; subst a b.
        rewrite Lt. cbn [negb]. rewrite <- app_assoc.
        assert (1 <= List.length kt)%nat by (rewrite Ekt; cbn; lia).
        rewrite IHv by (auto; lia).
        rewrite IH by (auto; lia). f_equal.
        + rewrite Els. repeat (rewrite <- app_assoc; cbn [app]). reflexivity.
        + rewrite !zlen_app. lia. }
    rewrite <- app_assoc. cbn [app]. rewrite K; [|exact Hm|cbn [List.length] in Hf; rewrite app_length in Hf; cbn in Hf; lia].
    cbn [app]. f_equal. rewrite zlen_cons, zlen_app. change (zlen ["e"%byte]) with 1. lia.
Qed.

(** *** Termination: enough fuel always gives an answer *)
Lemma consume_shrinks fuel inp off out rest off' : consume fuel inp off = COk out rest off' ->
  (List.length rest < List.length inp)%nat.
Proof.
  intros H. apply consume_sound in H as (-> & _ & v & V). apply gram_first_not_e in V as (c & t & -> & _).
  cbn. rewrite app_length. lia.
Qed.
Lemma read_str_shrinks inp off ls body rest off' : read_str inp off = SOk ls body rest off' ->
  (List.length rest < List.length inp)%nat.
Proof. intros H. apply read_str_ok in H as (-> & _). rewrite !app_length. cbn. lia. Qed.

Lemma consume_fuel_mut fuel :
  (forall inp off, (2 * List.length inp + 1 <= fuel)%nat -> consume fuel inp off <> CFuel) /\
  (forall out0 inp off, (2 * List.length inp + 2 <= fuel)%nat -> consume_list fuel out0 inp off <> CFuel) /\
  (forall out0 lk inp off, (2 * List.length inp + 2 <= fuel)%nat -> consume_dict fuel out0 lk inp off <> CFuel).
Proof.
  induction fuel as [|n (IHc & IHl & IHd)]; [repeat split; intros; lia|]. split; [|split].
  - intros [|c inp] off Hf; cbn [consume List.length] in *; [discriminate|].
    destruct (beqb c "i"%byte); [destruct (read_int _ _ _); discriminate|].
    destruct (beqb c "l"%byte); [apply IHl; lia|]. destruct (beqb c "d"%byte); [apply IHd; lia|].
    destruct (is_digit c); [destruct (read_str _ _); discriminate|discriminate].
  - intros out0 [|c inp] off Hf; cbn [consume_list]; [discriminate|].
    destruct (beqb c "e"%byte); [discriminate|].
    destruct (consume n (c :: inp) off) as [o r f| | |] eqn:R; try discriminate.
    + apply consume_shrinks in R. apply IHl. lia.
    + apply IHc in R; [destruct R|lia].
  - intros out0 lk [|c inp] off Hf; cbn [consume_dict]; [discriminate|].
    destruct (beqb c "e"%byte); [discriminate|].
    destruct (read_str (c :: inp) off) as [ls k r f| |] eqn:S; try discriminate.
    apply read_str_shrinks in S. destruct (negb (bytes_ltb lk k)); [discriminate|].
    destruct (consume n r f) as [o r' f'| | |] eqn:R; try discriminate.
    + apply consume_shrinks in R. apply IHd. lia.
    + apply IHc in R; [destruct R|lia].
Qed.
Lemma consume_no_fuel fuel inp off : (2 * List.length inp + 1 <= fuel)%nat -> consume fuel inp off <> CFuel.
Proof. apply (consume_fuel_mut fuel). Qed.

(** The exact characterisation. *)
Lemma consume_iff fuel inp off out rest off' : (2 * List.length inp + 1 <= fuel)%nat ->
  (consume fuel inp off = COk out rest off' <->
   inp = out ++ rest /\ off' = off + zlen out /\ exists v, lax v out).
Proof.
  intros Hf. split; [apply consume_sound|]. intros (-> & -> & v & V).
  apply consume_complete with (v := v); [exact V|]. rewrite app_length in Hf. lia.
Qed.
