(** The decoder looks at nothing beyond the value it returns: what follows the
    consumed text can be replaced by anything. *)
From Verif Require Import GoBase GoBaseProofs Strconv StrconvProofs BencTypes BencFields BencEncode BencDecode BencDecodeEqs BencSpec BencSpecProofs BencConsumeProofs BencDecodeProofs.
From Coq Require Import ZifyBool ZifyNat ZifyN.

Lemma read_str_frame inp off ls body rest off' : read_str inp off = SOk ls body rest off' ->
  exists c out, inp = (c :: out) ++ rest /\ c <> "e"%byte /\ forall rest', read_str ((c :: out) ++ rest') off = SOk ls body rest' off'.
Proof.
  intros H. apply read_str_ok in H as (-> & L & ->).
  destruct (lax_str_nonneg _ _ L) as (c & t' & E & N). exists c, t'. rewrite <- E. split; [reflexivity|].
  split; [intros ->; cbn in N; discriminate|]. intros rest'.
  destruct (read_str_lax _ _ rest' off L) as (ls' & E' & R). rewrite R. f_equal.
  assert (forall a b, a ++ ":"%byte :: body = b ++ ":"%byte :: body -> b = a) as K by (intros a b; intros X; apply app_inv_tail in X; auto).
  auto.
Qed.
Lemma read_int_frame parse inp off txt rest z off' : (forall n, parse n = Some z -> forallb num_char n = true) ->
  read_int parse inp off = IOk txt rest z off' ->
  exists out, inp = ("i"%byte :: out) ++ rest /\ forall rest', read_int parse (("i"%byte :: out) ++ rest') off = IOk txt rest' z off'.
Proof.
  intros P H. apply read_int_ok in H as (-> & Pz & N & ->). exists (txt ++ ["e"%byte]). split; [reflexivity|].
  intros rest'. apply read_int_lax; auto.
Qed.
Lemma parse_int_chars z n : parse_int n = Some z -> forallb num_char n = true.
Proof. intros H. apply go_int_parse in H. apply (go_int_chars _ _ H). Qed.
Lemma parse_uint_chars z n : parse_uint n = Some z -> forallb num_char n = true.
Proof. intros H. apply go_uint_parse in H. apply (go_uint_chars _ _ H). Qed.

Lemma consume_frame_mut n :
  (forall inp off o rest off', consume n inp off = COk o rest off' -> exists c out, inp = (c :: out) ++ rest /\ c <> "e"%byte /\
      forall rest', consume n ((c :: out) ++ rest') off = COk o rest' off') /\
  (forall b inp off o rest off', consume_list n b inp off = COk o rest off' -> exists out, inp = out ++ rest /\
      forall rest', consume_list n b (out ++ rest') off = COk o rest' off') /\
  (forall b lk inp off o rest off', consume_dict n b lk inp off = COk o rest off' -> exists out, inp = out ++ rest /\
      forall rest', consume_dict n b lk (out ++ rest') off = COk o rest' off').
Proof.
  induction n as [|n (IHc & IHl & IHd)]; [repeat split; intros; discriminate|].
  split; [|split].
  - intros inp off o rest off' H. destruct inp as [|c inp]; [discriminate|]. cbn [consume] in H.
    destruct (beqb c "i") eqn:E1.
    { destruct (read_int parse_int (c :: inp) off) eqn:R; [|discriminate]. injection H as <- <- <-.
      apply read_int_frame in R as (out & -> & F); [|apply parse_int_chars]. exists "i"%byte, out. split; [reflexivity|]. split; [discriminate|].
      intros rest'. specialize (F rest'). cbn [consume app] in *. rewrite beqb_refl. rewrite F. reflexivity. }
    destruct (beqb c "l") eqn:E2.
    { apply IHl in H as (out & -> & F). exists c, out. split; [reflexivity|]. apply beqb_eq in E2. subst. split; [discriminate|].
      intros rest'. cbn [consume app]. apply F. }
    destruct (beqb c "d") eqn:E3.
    { apply IHd in H as (out & -> & F). exists c, out. split; [reflexivity|]. apply beqb_eq in E3. subst. split; [discriminate|].
      intros rest'. cbn [consume app]. apply F. }
    destruct (is_digit c) eqn:D; [|discriminate].
    destruct (read_str (c :: inp) off) eqn:R; try discriminate. injection H as <- <- <-.
    apply read_str_frame in R as (c' & out & E & Ne & F). cbn [app] in E. injection E as <- ->. exists c, out. split; [reflexivity|]. split; [exact Ne|].
    intros rest'. specialize (F rest'). cbn [consume app] in *. rewrite E1, E2, E3, D, F. reflexivity.
  - intros b inp off o rest off' H. destruct inp as [|c inp]; [discriminate|]. cbn [consume_list] in H.
    destruct (beqb c "e") eqn:E1.
    { injection H as <- <- <-. exists [c]. split; [reflexivity|]. intros. cbn [consume_list app]. rewrite E1. reflexivity. }
    destruct (consume n (c :: inp) off) as [o1 r1 off1| | |] eqn:R; try discriminate.
    apply IHc in R as (c' & out1 & E & Ne & F). cbn [app] in E. injection E as <- ->.
    apply IHl in H as (out2 & -> & G). exists ((c :: out1) ++ out2). split; [rewrite <- app_assoc; reflexivity|].
    intros rest'. rewrite <- app_assoc. specialize (F (out2 ++ rest')). cbn [consume_list app] in *. rewrite E1, F. apply G.
  - intros b lk inp off o rest off' H. destruct inp as [|c inp]; [discriminate|]. cbn [consume_dict] in H.
    destruct (beqb c "e") eqn:E1.
    { injection H as <- <- <-. exists [c]. split; [reflexivity|]. intros. cbn [consume_dict app]. rewrite E1. reflexivity. }
    destruct (read_str (c :: inp) off) as [ls key r0 off0| |] eqn:R0; try discriminate.
    apply read_str_frame in R0 as (c' & out0 & E & Ne & F0). cbn [app] in E. injection E as <- ->.
    destruct (negb (bytes_ltb lk key)) eqn:Lt; [discriminate|].
    destruct (consume n r0 off0) as [o1 r1 off1| | |] eqn:R; try discriminate.
    apply IHc in R as (c' & out1 & -> & Ne' & F).
    apply IHd in H as (out2 & -> & G). exists ((c :: out0) ++ (c' :: out1) ++ out2). split; [rewrite <- !app_assoc; reflexivity|].
    intros rest'. rewrite <- !app_assoc. specialize (F (out2 ++ rest')). specialize (F0 ((c' :: out1) ++ out2 ++ rest')). 
    cbn [consume_dict app] in *. rewrite E1, F0, Lt, F. apply G.
Qed.
Lemma consume_frame n inp off o rest off' : consume n inp off = COk o rest off' -> exists c out, inp = (c :: out) ++ rest /\ c <> "e"%byte /\
      forall rest', consume n ((c :: out) ++ rest') off = COk o rest' off'.
Proof. apply (consume_frame_mut n). Qed.

Section Frame.
Variable C : customs.

Lemma unmarshaler_frame n id r fl old wr inp off v rest off' :
  dec_unmarshaler C n id r fl old wr inp off = DOk v rest off' -> exists c out, inp = (c :: out) ++ rest /\ c <> "e"%byte /\
    forall rest', dec_unmarshaler C n id r fl old wr ((c :: out) ++ rest') off = DOk v rest' off'.
Proof.
  unfold dec_unmarshaler. destruct (fl_ro fl); [discriminate|].
  destruct (consume n inp off) as [o r1 off1| | |] eqn:R; try discriminate. apply consume_frame in R as (c & out & -> & Ne & F).
  destruct (c_unmarsh C id r o) eqn:U; try discriminate. intros [= <- <- <-]. exists c, out. split; [reflexivity|]. split; [exact Ne|].
  intros rest'. rewrite F, U. reflexivity.
Qed.

Ltac fin := let r := fresh "rest'" in intros r; cbn [app].

Lemma decode_frame_mut n :
  (forall t fl old inp off v rest off', decode C n t fl old inp off = DOk v rest off' -> exists c out, inp = (c :: out) ++ rest /\ c <> "e"%byte /\
     forall rest', decode C n t fl old ((c :: out) ++ rest') off = DOk v rest' off') /\
  (forall et fl pre post inp off v rest off', decode_slice C n et fl pre post inp off = DOk v rest off' -> exists out, inp = out ++ rest /\
     forall rest', decode_slice C n et fl pre post (out ++ rest') off = DOk v rest' off') /\
  (forall et fl pre post inp off v rest off', decode_array C n et fl pre post inp off = DOk v rest off' -> exists out, inp = out ++ rest /\
     forall rest', decode_array C n et fl pre post (out ++ rest') off = DOk v rest' off') /\
  (forall et fl m lk inp off v rest off', decode_map C n et fl m lk inp off = DOk v rest off' -> exists out, inp = out ++ rest /\
     forall rest', decode_map C n et fl m lk (out ++ rest') off = DOk v rest' off') /\
  (forall t fl v0 lk inp off v rest off', decode_struct C n t fl v0 lk inp off = DOk v rest off' -> exists out, inp = out ++ rest /\
     forall rest', decode_struct C n t fl v0 lk (out ++ rest') off = DOk v rest' off').
Proof.
  induction n as [|n (IHd & IHs & IHa & IHm & IHt)]; [repeat split; intros; discriminate|].
  split; [|split; [|split; [|split]]].
  - intros t fl old inp off v rest off'. setoid_rewrite decode_S.
    destruct (if negb (is_ptr t) && fl_addr fl then ptr_impl m_unmarsh t else None) as [id|]; [apply unmarshaler_frame|].
    destruct (impl m_unmarsh t) as [id|].
    { destruct t; try apply unmarshaler_frame. destruct old; apply unmarshaler_frame. }
    destruct (under t) as [|w|w| | |et|k et|kt et|nm fs| | |t'|i ms t'] eqn:U.
    + destruct (read_str inp off) eqn:R; try discriminate. destruct (settable fl); [|discriminate].
      intros [= <- <- <-]. apply read_str_frame in R as (c & out & -> & Ne & F). exists c, out. split; [reflexivity|]. split; [exact Ne|].
      intros rest'. rewrite F. reflexivity.
    + destruct (read_int parse_int inp off) eqn:R; try discriminate. destruct (settable fl); [|discriminate].
      intros [= <- <- <-]. apply read_int_frame in R as (out & -> & F); [|apply parse_int_chars]. exists "i"%byte, out. split; [reflexivity|]. split; [discriminate|].
      intros rest'. rewrite F. reflexivity.
    + destruct (read_int parse_uint inp off) eqn:R; try discriminate. destruct (settable fl); [|discriminate].
      intros [= <- <- <-]. apply read_int_frame in R as (out & -> & F); [|apply parse_uint_chars]. exists "i"%byte, out. split; [reflexivity|]. split; [discriminate|].
      intros rest'. rewrite F. reflexivity.
    + discriminate.
    + discriminate.
    + destruct (kind_uint8 et).
      * destruct (read_str inp off) eqn:R; try discriminate. destruct (settable fl); [|discriminate].
        intros [= <- <- <-]. apply read_str_frame in R as (c & out & -> & Ne & F). exists c, out. split; [reflexivity|]. split; [exact Ne|].
        intros rest'. rewrite F. reflexivity.
      * destruct inp as [|c inp]; [discriminate|]. destruct (beqb c "l"%byte) eqn:E; [|discriminate]. cbn [negb].
        apply beqb_eq in E. subst c.
        destruct old; try discriminate; [destruct (settable fl); [|discriminate]|]; intros H; apply IHs in H as (out & -> & F);
          exists "l"%byte, out; (split; [reflexivity|]); (split; [discriminate|]); intros rest'; cbn [app]; apply F.
    + destruct inp as [|c inp]; [discriminate|]. destruct (beqb c "l"%byte) eqn:E; [|discriminate]. cbn [negb].
      apply beqb_eq in E. subst c. destruct old; try discriminate. intros H; apply IHa in H as (out & -> & F).
      exists "l"%byte, out; (split; [reflexivity|]); (split; [discriminate|]); intros rest'; cbn [app]; apply F.
    + destruct inp as [|c inp]; [discriminate|]. destruct (beqb c "d"%byte) eqn:E; [|discriminate]. cbn [negb].
      apply beqb_eq in E. subst c. destruct (kind_string kt); [|discriminate]. cbn [negb].
      destruct old; try discriminate; [destruct (settable fl); [|discriminate]|]; intros H; apply IHm in H as (out & -> & F);
          exists "d"%byte, out; (split; [reflexivity|]); (split; [discriminate|]); intros rest'; cbn [app]; apply F.
    + destruct inp as [|c inp]; [discriminate|]. destruct (beqb c "d"%byte) eqn:E; [|discriminate]. cbn [negb].
      apply beqb_eq in E. subst c. intros H; apply IHt in H as (out & -> & F).
      exists "d"%byte, out; (split; [reflexivity|]); (split; [discriminate|]); intros rest'; cbn [app]; apply F.
    + destruct old; try discriminate.
      * destruct inp as [|c inp]; [discriminate|]. cbv zeta.
        destruct (if beqb c "i" then _ else _) as [dt|] eqn:EC; [|discriminate].
        destruct (decode C n dt fl_new (zero dt) (c :: inp) off) eqn:D; try discriminate. destruct (settable fl); [|discriminate].
        intros [= <- <- <-]. apply IHd in D as (c' & out & E & Ne & F). cbn [app] in E. injection E as <- ->.
        exists c, out. split; [reflexivity|]. split; [exact Ne|]. intros rest'. specialize (F rest'). cbn [app] in *. rewrite EC, F. reflexivity.
      * intros H. apply dmap_ok in H as (v' & H & ->). apply IHd in H as (c & out & -> & Ne & F). exists c, out. split; [reflexivity|]. split; [exact Ne|].
        intros rest'. rewrite F. reflexivity.
    + destruct old; try discriminate. intros H. apply dmap_ok in H as (v' & H & ->). apply IHd in H as (c & out & -> & Ne & F). exists c, out. split; [reflexivity|]. split; [exact Ne|].
        intros rest'. rewrite F. reflexivity.
    + destruct old; try discriminate. intros H. apply dmap_ok in H as (v' & H & ->). apply IHd in H as (c & out & -> & Ne & F). exists c, out. split; [reflexivity|]. split; [exact Ne|].
        intros rest'. rewrite F. reflexivity.
    + discriminate.
  - intros et fl pre post inp off v rest off'. setoid_rewrite decode_slice_S. destruct inp as [|c inp]; [discriminate|].
    destruct (beqb c "e"%byte) eqn:E1.
    + intros [= <- <- <-]. exists [c]. split; [reflexivity|]. intros rest'. cbn [app]. rewrite E1. reflexivity.
    + destruct (match post with [] => _ | _ => _ end) as [[x post']|]; [|discriminate].
      destruct (decode C n et (fl_elem fl) x (c :: inp) off) eqn:D; try discriminate.
      apply IHd in D as (c' & out1 & E & Ne & F). cbn [app] in E. injection E as <- ->.
      intros H. apply IHs in H as (out2 & -> & G). exists ((c :: out1) ++ out2). split; [rewrite <- app_assoc; reflexivity|].
      intros rest'. rewrite <- app_assoc. specialize (F (out2 ++ rest')). cbn [app] in *. rewrite E1, F. apply G.
  - intros et fl pre post inp off v rest off'. setoid_rewrite decode_array_S. destruct inp as [|c inp]; [discriminate|].
    destruct (beqb c "e"%byte) eqn:E1.
    + intros [= <- <- <-]. exists [c]. split; [reflexivity|]. intros rest'. cbn [app]. rewrite E1. reflexivity.
    + destruct post as [|x post'].
      * destruct (consume n (c :: inp) off) eqn:D; try discriminate.
        apply consume_frame in D as (c' & out1 & E & Ne & F). cbn [app] in E. injection E as <- ->.
        intros H. apply IHa in H as (out2 & -> & G). exists ((c :: out1) ++ out2). split; [rewrite <- app_assoc; reflexivity|].
        intros rest'. rewrite <- app_assoc. specialize (F (out2 ++ rest')). cbn [app] in *. rewrite E1, F. apply G.
      * destruct (decode C n et fl x (c :: inp) off) eqn:D; try discriminate.
        apply IHd in D as (c' & out1 & E & Ne & F). cbn [app] in E. injection E as <- ->.
        intros H. apply IHa in H as (out2 & -> & G). exists ((c :: out1) ++ out2). split; [rewrite <- app_assoc; reflexivity|].
        intros rest'. rewrite <- app_assoc. specialize (F (out2 ++ rest')). cbn [app] in *. rewrite E1, F. apply G.
  - intros et fl m lk inp off v rest off'. setoid_rewrite decode_map_S. destruct inp as [|c inp]; [discriminate|].
    destruct (beqb c "e"%byte) eqn:E1.
    + intros [= <- <- <-]. exists [c]. split; [reflexivity|]. intros rest'. cbn [app]. rewrite E1. reflexivity.
    + destruct (read_str (c :: inp) off) as [ls key r0 off0| |] eqn:R0; try discriminate.
      apply read_str_frame in R0 as (c' & out0 & E & Ne & F0). cbn [app] in E. injection E as <- ->.
      destruct (negb (bytes_ltb lk key)) eqn:Lt; [discriminate|].
      destruct (decode C n (TPtr et) fl_root_val (VPtr (zero et)) r0 off0) as [x r o| | |] eqn:D; try discriminate.
      apply IHd in D as (c' & out1 & -> & Ne' & F). destruct x; try discriminate. destruct (fl_ro fl); [discriminate|].
      intros H. apply IHm in H as (out2 & -> & G). exists ((c :: out0) ++ (c' :: out1) ++ out2). split; [rewrite <- !app_assoc; reflexivity|].
      intros rest'. rewrite <- !app_assoc. specialize (F (out2 ++ rest')). specialize (F0 ((c' :: out1) ++ out2 ++ rest')).
      cbn [app] in *. rewrite E1, F0, Lt, F. apply G.
  - intros t fl v0 lk inp off v rest off'. setoid_rewrite decode_struct_S. destruct inp as [|c inp]; [discriminate|].
    destruct (beqb c "e"%byte) eqn:E1.
    + intros [= <- <- <-]. exists [c]. split; [reflexivity|]. intros rest'. cbn [app]. rewrite E1. reflexivity.
    + destruct (read_str (c :: inp) off) as [ls key r0 off0| |] eqn:R0; try discriminate.
      apply read_str_frame in R0 as (c' & out0 & E & Ne & F0). cbn [app] in E. injection E as <- ->.
      destruct (negb (bytes_ltb lk key)) eqn:Lt; [discriminate|].
      destruct (assoc key (key_to_field t)) as [f|] eqn:EA.
      * destruct (path_get (f_index f) t fl v0) as [[[ft ffl] x]|] eqn:EP; [|discriminate].
        destruct (decode C n ft ffl x r0 off0) eqn:D; try discriminate.
        apply IHd in D as (c' & out1 & -> & Ne' & F).
        intros H. apply IHt in H as (out2 & -> & G). exists ((c :: out0) ++ (c' :: out1) ++ out2). split; [rewrite <- !app_assoc; reflexivity|].
        intros rest'. rewrite <- !app_assoc. specialize (F (out2 ++ rest')). specialize (F0 ((c' :: out1) ++ out2 ++ rest')).
        cbn [app] in *. rewrite E1, F0, Lt, EA, EP, F. apply G.
      * destruct (consume n r0 off0) eqn:D; try discriminate.
        apply consume_frame in D as (c' & out1 & -> & Ne' & F).
        intros H. apply IHt in H as (out2 & -> & G). exists ((c :: out0) ++ (c' :: out1) ++ out2). split; [rewrite <- !app_assoc; reflexivity|].
        intros rest'. rewrite <- !app_assoc. specialize (F (out2 ++ rest')). specialize (F0 ((c' :: out1) ++ out2 ++ rest')).
        cbn [app] in *. rewrite E1, F0, Lt, EA, F. apply G.
Qed.
Lemma decode_frame n t fl old inp off v rest off' : decode C n t fl old inp off = DOk v rest off' -> exists out, inp = out ++ rest /\
     forall rest', decode C n t fl old (out ++ rest') off = DOk v rest' off'.
Proof. intros H. apply (decode_frame_mut n) in H as (c & out & E & _ & F). exists (c :: out). auto. Qed.
End Frame.

(** *** The offset only counts. *)
Lemma read_str_off inp off d ls body rest off' : read_str inp off = SOk ls body rest off' -> read_str inp (off + d) = SOk ls body rest (off' + d).
Proof.
  unfold read_str. destruct (read_until ":" inp) as [[l r]|]; [|discriminate]. destruct (atoi l) as [z|]; [|discriminate].
  destruct (negb (make_ok z)); [discriminate|]. destruct (zlen r <? z); [discriminate|]. intros [= <- <- <- <-]. f_equal; lia.
Qed.
Lemma read_int_off parse inp off d txt rest z off' : read_int parse inp off = IOk txt rest z off' -> read_int parse inp (off + d) = IOk txt rest z (off' + d).
Proof.
  unfold read_int. destruct inp as [|c inp]; [discriminate|]. destruct (negb (beqb c "i")); [discriminate|].
  destruct (read_until "e" inp) as [[a b]|]; [|discriminate]. destruct (leading_zero a); [discriminate|].
  destruct (parse a); [|discriminate]. intros [= <- <- <- <-]. f_equal; lia.
Qed.
Lemma consume_off_mut n :
  (forall inp off o rest off' d, consume n inp off = COk o rest off' -> consume n inp (off + d) = COk o rest (off' + d)) /\
  (forall b inp off o rest off' d, consume_list n b inp off = COk o rest off' -> consume_list n b inp (off + d) = COk o rest (off' + d)) /\
  (forall b lk inp off o rest off' d, consume_dict n b lk inp off = COk o rest off' -> consume_dict n b lk inp (off + d) = COk o rest (off' + d)).
Proof.
  induction n as [|n (IHc & IHl & IHd)]; [repeat split; intros; discriminate|].
  split; [|split].
  - intros inp off o rest off' d H. destruct inp as [|c inp]; [discriminate|]. cbn [consume] in *.
    destruct (beqb c "i") eqn:E1.
    { destruct (read_int parse_int (c :: inp) off) eqn:R; [|discriminate]. injection H as <- <- <-.
      rewrite (read_int_off _ _ _ d _ _ _ _ R). reflexivity. }
    replace (off + d + 1) with (off + 1 + d) by lia.
    destruct (beqb c "l") eqn:E2; [apply IHl; exact H|]. destruct (beqb c "d") eqn:E3; [apply IHd; exact H|].
    destruct (is_digit c) eqn:D; [|discriminate].
    destruct (read_str (c :: inp) off) eqn:R; try discriminate. injection H as <- <- <-.
    rewrite (read_str_off _ _ d _ _ _ _ R). reflexivity.
  - intros b inp off o rest off' d H. destruct inp as [|c inp]; [discriminate|]. cbn [consume_list] in *.
    destruct (beqb c "e") eqn:E1; [injection H as <- <- <-; f_equal; lia|].
    destruct (consume n (c :: inp) off) as [o1 r1 off1| | |] eqn:R; try discriminate.
    rewrite (IHc _ _ _ _ _ d R). apply IHl. exact H.
  - intros b lk inp off o rest off' d H. destruct inp as [|c inp]; [discriminate|]. cbn [consume_dict] in *.
    destruct (beqb c "e") eqn:E1; [injection H as <- <- <-; f_equal; lia|].
    destruct (read_str (c :: inp) off) as [ls key r0 off0| |] eqn:R0; try discriminate. rewrite (read_str_off _ _ d _ _ _ _ R0).
    destruct (negb (bytes_ltb lk key)) eqn:Lt; [discriminate|].
    destruct (consume n r0 off0) as [o1 r1 off1| | |] eqn:R; try discriminate.
    rewrite (IHc _ _ _ _ _ d R). apply IHd. exact H.
Qed.
Section Off.
Variable C : customs.
Lemma unmarshaler_off n id r fl old wr inp off v rest off' d :
  dec_unmarshaler C n id r fl old wr inp off = DOk v rest off' -> dec_unmarshaler C n id r fl old wr inp (off + d) = DOk v rest (off' + d).
Proof.
  unfold dec_unmarshaler. destruct (fl_ro fl); [discriminate|].
  destruct (consume n inp off) as [o r1 off1| | |] eqn:R; try discriminate. apply (consume_off_mut n) with (d := d) in R. rewrite R.
  destruct (c_unmarsh C id r o) eqn:U; try discriminate. intros [= <- <- <-]. reflexivity.
Qed.
Lemma decode_off_mut n :
  (forall t fl old inp off v rest off' d, decode C n t fl old inp off = DOk v rest off' -> decode C n t fl old inp (off + d) = DOk v rest (off' + d)) /\
  (forall et fl pre post inp off v rest off' d, decode_slice C n et fl pre post inp off = DOk v rest off' -> decode_slice C n et fl pre post inp (off + d) = DOk v rest (off' + d)) /\
  (forall et fl pre post inp off v rest off' d, decode_array C n et fl pre post inp off = DOk v rest off' -> decode_array C n et fl pre post inp (off + d) = DOk v rest (off' + d)) /\
  (forall et fl m lk inp off v rest off' d, decode_map C n et fl m lk inp off = DOk v rest off' -> decode_map C n et fl m lk inp (off + d) = DOk v rest (off' + d)) /\
  (forall t fl v0 lk inp off v rest off' d, decode_struct C n t fl v0 lk inp off = DOk v rest off' -> decode_struct C n t fl v0 lk inp (off + d) = DOk v rest (off' + d)).
Proof.
  induction n as [|n (IHd & IHs & IHa & IHm & IHt)]; [repeat split; intros; discriminate|].
  split; [|split; [|split; [|split]]].
  - intros t fl old inp off v rest off' d. rewrite !decode_S.
    destruct (if negb (is_ptr t) && fl_addr fl then ptr_impl m_unmarsh t else None) as [id|]; [apply unmarshaler_off|].
    destruct (impl m_unmarsh t) as [id|].
    { destruct t; try apply unmarshaler_off. destruct old; apply unmarshaler_off. }
    replace (off + d + 1) with (off + 1 + d) by lia.
    destruct (under t) as [|w|w| | |et|k et|kt et|nm fs| | |t'|i ms t'] eqn:U; try discriminate.
    + destruct (read_str inp off) eqn:R; try discriminate. rewrite (read_str_off _ _ d _ _ _ _ R). destruct (settable fl); [|discriminate].
      intros [= <- <- <-]. reflexivity.
    + destruct (read_int parse_int inp off) eqn:R; try discriminate. rewrite (read_int_off _ _ _ d _ _ _ _ R). destruct (settable fl); [|discriminate].
      intros [= <- <- <-]. reflexivity.
    + destruct (read_int parse_uint inp off) eqn:R; try discriminate. rewrite (read_int_off _ _ _ d _ _ _ _ R). destruct (settable fl); [|discriminate].
      intros [= <- <- <-]. reflexivity.
    + destruct (kind_uint8 et).
      * destruct (read_str inp off) eqn:R; try discriminate. rewrite (read_str_off _ _ d _ _ _ _ R). destruct (settable fl); [|discriminate].
        intros [= <- <- <-]. reflexivity.
      * destruct inp as [|c inp]; [discriminate|]. destruct (negb (beqb c "l"%byte)); [discriminate|].
        destruct old; try discriminate; [destruct (settable fl); [|discriminate]|]; apply IHs.
    + destruct inp as [|c inp]; [discriminate|]. destruct (negb (beqb c "l"%byte)); [discriminate|].
      destruct old; try discriminate. apply IHa.
    + destruct inp as [|c inp]; [discriminate|]. destruct (negb (beqb c "d"%byte)); [discriminate|].
      destruct (negb (kind_string kt)); [discriminate|].
      destruct old; try discriminate; [destruct (settable fl); [|discriminate]|]; apply IHm.
    + destruct inp as [|c inp]; [discriminate|]. destruct (negb (beqb c "d"%byte)); [discriminate|]. apply IHt.
    + destruct old; try discriminate.
      * destruct inp as [|c inp]; [discriminate|]. cbv zeta.
        destruct (if beqb c "i" then _ else _) as [dt|] eqn:EC; [|discriminate].
        destruct (decode C n dt fl_new (zero dt) (c :: inp) off) eqn:D; try discriminate. rewrite (IHd _ _ _ _ _ _ _ _ d D).
        destruct (settable fl); [|discriminate]. intros [= <- <- <-]. reflexivity.
      * intros H. apply dmap_ok in H as (v' & H & ->). rewrite (IHd _ _ _ _ _ _ _ _ d H). reflexivity.
    + destruct old; try discriminate. intros H. apply dmap_ok in H as (v' & H & ->). rewrite (IHd _ _ _ _ _ _ _ _ d H). reflexivity.
    + destruct old; try discriminate. intros H. apply dmap_ok in H as (v' & H & ->). rewrite (IHd _ _ _ _ _ _ _ _ d H). reflexivity.
  - intros et fl pre post inp off v rest off' d. rewrite !decode_slice_S. destruct inp as [|c inp]; [discriminate|].
    destruct (beqb c "e"%byte); [intros [= <- <- <-]; f_equal; lia|].
    destruct (match post with [] => _ | _ => _ end) as [[x post']|]; [|discriminate].
    destruct (decode C n et (fl_elem fl) x (c :: inp) off) eqn:D; try discriminate. rewrite (IHd _ _ _ _ _ _ _ _ d D). apply IHs.
  - intros et fl pre post inp off v rest off' d. rewrite !decode_array_S. destruct inp as [|c inp]; [discriminate|].
    destruct (beqb c "e"%byte); [intros [= <- <- <-]; f_equal; lia|].
    destruct post as [|x post'].
    + destruct (consume n (c :: inp) off) eqn:D; try discriminate. apply (consume_off_mut n) with (d := d) in D. rewrite D. apply IHa.
    + destruct (decode C n et fl x (c :: inp) off) eqn:D; try discriminate. rewrite (IHd _ _ _ _ _ _ _ _ d D). apply IHa.
  - intros et fl m lk inp off v rest off' d. rewrite !decode_map_S. destruct inp as [|c inp]; [discriminate|].
    destruct (beqb c "e"%byte); [intros [= <- <- <-]; f_equal; lia|].
    destruct (read_str (c :: inp) off) as [ls key r0 off0| |] eqn:R0; try discriminate. rewrite (read_str_off _ _ d _ _ _ _ R0).
    destruct (negb (bytes_ltb lk key)); [discriminate|].
    destruct (decode C n (TPtr et) fl_root_val (VPtr (zero et)) r0 off0) as [x r o| | |] eqn:D; try discriminate. rewrite (IHd _ _ _ _ _ _ _ _ d D).
    destruct x; try discriminate. destruct (fl_ro fl); [discriminate|]. apply IHm.
  - intros t fl v0 lk inp off v rest off' d. rewrite !decode_struct_S. destruct inp as [|c inp]; [discriminate|].
    destruct (beqb c "e"%byte); [intros [= <- <- <-]; f_equal; lia|].
    destruct (read_str (c :: inp) off) as [ls key r0 off0| |] eqn:R0; try discriminate. rewrite (read_str_off _ _ d _ _ _ _ R0).
    destruct (negb (bytes_ltb lk key)); [discriminate|].
    destruct (assoc key (key_to_field t)) as [f|].
    + destruct (path_get (f_index f) t fl v0) as [[[ft ffl] x]|]; [|discriminate].
      destruct (decode C n ft ffl x r0 off0) eqn:D; try discriminate. rewrite (IHd _ _ _ _ _ _ _ _ d D). apply IHt.
    + destruct (consume n r0 off0) eqn:D; try discriminate. apply (consume_off_mut n) with (d := d) in D. rewrite D. apply IHt.
Qed.
Lemma decode_off n t fl old inp off v rest off' d : decode C n t fl old inp off = DOk v rest off' -> decode C n t fl old inp (off + d) = DOk v rest (off' + d).
Proof. apply (decode_off_mut n). Qed.
End Off.
