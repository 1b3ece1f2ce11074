(** Which texts the decoder accepts, and that encodings tell values apart. *)
From Verif Require Import GoBase GoBaseProofs Strconv BencTypes BencFields BencEncode BencDecode BencSpec BencEncSpec BencFieldSpec BencRoundSpec BencSpecProofs BencDecodeProofs BencFuelProofs BencApiProofs BencRoundProofs BencRoundTrip TrackerProofs BencStrictSpec.

Lemma holds_any b : forall x, holds b x <-> x = any_of b.
Proof.
  induction b as [z|s|l IH|m IH] using bval_ind'; intros x; cbn [any_of].
  - split; [intros H; now inversion H|intros ->; constructor].
  - split; [intros H; now inversion H|intros ->; constructor].
  - split.
    + intros H. inversion H as [| |? xs F|]; subst. unfold any_slice. do 2 f_equal. clear H. induction F as [|a y l ys R F IF]; [reflexivity|]. inversion IH as [|? ? Ia Il]; subst. cbn [map]. f_equal; [now apply Ia|auto].
    + intros ->. constructor. induction IH as [|a l Ia Il IF]; cbn [map]; constructor; [now apply Ia|exact IF].
  - split.
    + intros H. inversion H as [| | |? xs F]; subst. unfold any_map. do 2 f_equal. clear H. induction F as [|[k a] [k' y] m ys R F IF]; [reflexivity|]. inversion IH as [|? ? Ia Il]; subst. cbn [map fst snd] in *. destruct R as [-> R].
      f_equal; [f_equal; now apply Ia|auto].
    + intros ->. constructor. induction IH as [|[k a] m Ia Il IF]; cbn [map fst snd] in *; constructor; [split; [reflexivity|now apply Ia]|exact IF].
Qed.
Theorem accepted_any C inp v rest off : unmarshal C TAny VNil inp = DOk v rest off <->
  exists b out x, inp = out ++ rest /\ off = zlen out /\ lax b out /\ v = VPtr x /\ holds b x.
Proof.
  split.
  - intros H. apply any_inv in H as (b & out & L & -> & -> & ->). exists b, out, (any_of b). repeat split; auto. now apply holds_any.
  - intros (b & out & x & -> & -> & L & -> & H). apply holds_any in H as ->. now apply any_ok.
Qed.
Theorem accepted_typed C t old inp v rest off : unmarshal C t old inp = DOk v rest off -> exists b out, inp = out ++ rest /\ off = zlen out /\ lax_typed b out.
Proof.
  intros H. apply unmarshal_run in H as (n & H). apply decode_sound in H as (b & out & L & -> & ->). exists b, out. repeat split; auto.
Qed.
Theorem junk_ignored C t old inp v off junk : unmarshal C t old inp = DOk v [] off -> unmarshal C t old (inp ++ junk) = DOk v junk off.
Proof. intros H. destruct (unmarshal_offset C t old inp v [] off H) as (out & -> & -> & G). rewrite app_nil_r. apply G. Qed.

Theorem told_apart C t v w b x : survives C t fl_root_val v -> survives C t fl_root_val w -> marshal C (Some (t, v)) = EOk b -> marshal C (Some (t, w)) = EOk (b ++ x) ->
  x = [] /\ exists u, same_data v u /\ same_data w u.
Proof.
  intros Sv Sw Mv Mw. destruct (round_trip_value C t v b Sv Mv) as (v' & Uv & Dv). destruct (round_trip_value C t w _ Sw Mw) as (w' & Uw & Dw).
  apply (junk_ignored C t (zero t) b _ _ x) in Uv. rewrite Uv in Uw. injection Uw as <- -> _. split; [reflexivity|]. exists v'. auto.
Qed.
Theorem told_apart_pointer C t v w b x : survives C t fl_new v -> survives C t fl_new w -> marshal C (Some (TPtr t, VPtr v)) = EOk b -> marshal C (Some (TPtr t, VPtr w)) = EOk (b ++ x) ->
  x = [] /\ exists u, same_data v u /\ same_data w u.
Proof.
  intros Sv Sw Mv Mw. destruct (round_trip_pointer C t v b Sv Mv) as (v' & Uv & Dv). destruct (round_trip_pointer C t w _ Sw Mw) as (w' & Uw & Dw).
  apply (junk_ignored C t (zero t) b _ _ x) in Uv. rewrite Uv in Uw. injection Uw as <- -> _. split; [reflexivity|]. exists v'. auto.
Qed.
Theorem one_meaning b t b' x : lax_typed b t -> lax_typed b' (t ++ x) -> x = [] /\ b' = b.
Proof.
  intros L L'. destruct (gram_unique _ _ _ _ b t x b' (t ++ x) [] L L') as (-> & E & X); [now rewrite app_nil_r|]. auto.
Qed.

Lemma not_encodings :
  ~ (exists b, bep3 b (bs "i+7e")) /\ ~ (exists b, bep3 b (bs "003:abc")) /\ ~ (exists b, bep3 b (bs "d+1:ai1ee")).
Proof.
  assert (NP : forall z n, dec_text z ("+"%byte :: n) -> False).
  { intros z n [(_ & H & _)|(_ & n' & H & _)]; [|discriminate]. destruct n; cbn in H; discriminate H. }
  assert (NZ : forall z c n, dec_text z ("0"%byte :: c :: n) -> False).
  { intros z c n [(_ & H & _)|(_ & n' & H & _)]; discriminate H. }
  assert (NL : forall z a n, dec_text z (a :: n) -> a = "-"%byte \/ is_digit a = true).
  { intros z a n [(_ & H & _)|(_ & n' & H & _)]; [right|left; congruence]. destruct n; cbn in H; [exact H|]. apply andb_prop in H. destruct H as [H _]. apply andb_prop in H. exact (proj2 H). }
  assert (INV : forall b t, bep3 b t -> (exists z n, dec_text z n /\ t = "i"%byte :: n ++ ["e"%byte]) \/ (exists s, str_text s t) \/ (exists t', t = "l"%byte :: t') \/ t = bs "de" \/ (exists s k t', str_text s k /\ t = "d"%byte :: k ++ t')).
  { intros b t [z n D|s t' S|l ts F|m ks ts A K V].
    - left. exists z, n. split; [exact D|reflexivity].
    - right; left. exists s. exact S.
    - right; right; left. eexists. reflexivity.
    - right; right; right. destruct m as [|[k0 b0] m]; cbn [map fst snd] in K, V; inversion K as [|s0 k ss ks' S K']; subst; [left; reflexivity|right]. inversion V as [|? t1 ? ts' V1 V2]; subst.
      exists k0, k. eexists. split; [exact S|]. cbn [combine map concat fst snd]. rewrite <- !app_assoc. reflexivity. }
  assert (ST : forall s a n, str_text s (a :: n) -> a = "-"%byte \/ is_digit a = true).
  { intros s a n (d & D & E). destruct d as [|c d]; [destruct D as [(_ & H & _)|(_ & n' & H & _)]; discriminate H|]. injection E as <- _. exact (NL _ _ _ D). }
  split; [|split].
  - intros (b & H). destruct (INV _ _ H) as [(z & n & D & E)|[(s & S)|[(t' & E)|[E|(s & k & t' & _ & E)]]]]; try discriminate E.
    + destruct n as [|c n]; [discriminate E|]. injection E as <- _. exact (NP _ _ D).
    + destruct (ST _ _ _ S); discriminate.
  - intros (b & H). destruct (INV _ _ H) as [(z & n & D & E)|[(s & (n & D & E))|[(t' & E)|[E|(s & k & t' & _ & E)]]]]; try discriminate E.
    destruct n as [|c [|c' n]]; cbn in E; try discriminate. injection E as <- <- _. exact (NZ _ _ _ D).
  - intros (b & H). destruct (INV _ _ H) as [(z & n & D & E)|[(s & S)|[(t' & E)|[E|(s & k & t' & (n & D & ->) & E)]]]]; try discriminate E.
    + destruct (ST _ _ _ S); discriminate.
    + destruct n as [|c n]; cbn [app] in E; [discriminate E|]. injection E as <- _. exact (NP _ _ D).
Qed.
