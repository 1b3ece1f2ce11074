(** Entries whose key belongs to no field do not matter. *)
From Verif Require Import GoBase GoBaseProofs Strconv BencTypes BencFields BencFieldSpec BencEncode BencDecode BencDecodeEqs BencSpec BencSpecProofs BencConsumeProofs BencFieldsProofs
  BencResolveProofs BencDecodeProofs BencFuelProofs BencFrameProofs BencEncodeProofs BencStrictProofs BencIgnoreSpec.

Section Ignore.
Variable C : customs.
Variable t : gty.
Variable fl : flags.

Definition body (es : list entry) : bytes := concat (map (fun e => en_ktext e ++ en_vtext e) es).
(** What the entries make of the struct. *)
Inductive fills : gval -> list entry -> gval -> Prop :=
| fills_nil v : fills v [] v
| fills_known v e es f ft ffl x x' v' : assoc (en_key e) (key_to_field t) = Some f -> path_get (f_index f) t fl v = Some (ft, ffl, x) ->
    (exists n, forall rest off, decode C n ft ffl x (en_vtext e ++ rest) off = DOk x' rest (off + zlen (en_vtext e))) ->
    fills (path_set (f_index f) t v x') es v' -> fills v (e :: es) v'
| fills_foreign v e es v' : assoc (en_key e) (key_to_field t) = None -> (exists b, lax b (en_vtext e)) -> fills v es v' -> fills v (e :: es) v'.

Lemma decode_any_rest n ft ffl x txt rest off x' rest' off' : (exists b, lax_typed b txt) -> decode C n ft ffl x (txt ++ rest) off = DOk x' rest' off' ->
  rest' = rest /\ forall rest off, decode C n ft ffl x (txt ++ rest) off = DOk x' rest (off + zlen txt).
Proof.
  intros (b & L) E. destruct (decode_sound C _ _ _ _ _ _ _ _ _ E) as (b' & out & L' & Ei & Eo).
  assert (out = txt /\ rest' = rest) as [-> ->].
  { destruct (Nat.le_ge_cases (List.length txt) (List.length out)) as [H|H].
    - assert (P : out = txt ++ skipn (List.length txt) out).
      { rewrite <- (firstn_skipn (List.length txt) out) at 1. f_equal. pose proof (f_equal (firstn (List.length txt)) Ei) as F.
        rewrite !firstn_app, firstn_all, Nat.sub_diag, firstn_O, app_nil_r in F. replace (List.length txt - List.length out)%nat with O in F by lia.
        rewrite firstn_O, app_nil_r in F. now symmetry. }
      rewrite P in L'. destruct (one_meaning _ _ _ _ L L') as [Q _]. rewrite Q, app_nil_r in P. subst out. split; [reflexivity|]. now apply app_inv_head in Ei.
    - assert (P : txt = out ++ skipn (List.length out) txt).
      { rewrite <- (firstn_skipn (List.length out) txt) at 1. f_equal. pose proof (f_equal (firstn (List.length out)) Ei) as F.
        rewrite !firstn_app, firstn_all, Nat.sub_diag, firstn_O, app_nil_r in F. replace (List.length out - List.length txt)%nat with O in F by lia.
        now rewrite firstn_O, app_nil_r in F. }
      rewrite P in L. destruct (one_meaning _ _ _ _ L' L) as [Q _]. rewrite Q, app_nil_r in P. subst txt. split; [reflexivity|]. now apply app_inv_head in Ei. }
  split; [reflexivity|]. intros r o. destruct (decode_frame C _ _ _ _ _ _ _ _ _ E) as (out & Eo' & F).
  assert (out = txt) as -> by now apply app_inv_tail in Eo'.
  specialize (F r). apply (decode_off C _ _ _ _ _ _ _ _ _ (o - off)) in F. rewrite Eo in F. replace (off + (o - off)) with o in F by lia. rewrite F. f_equal. lia.
Qed.
Lemma key_start e : entry_ok e -> exists c kt, en_ktext e = c :: kt /\ beqb c "e"%byte = false.
Proof.
  intros [H _]. destruct (lax_str_nonneg _ _ H) as (c & kt & E & N). exists c, kt. split; [exact E|]. apply not_true_is_false. intros B.
  apply beqb_eq in B. subst. discriminate.
Qed.
Lemma fills_sound es : forall n v lk rest off v' rest' off', Forall entry_ok es -> ascending (lk :: map en_key es) ->
  decode_struct C n t fl v lk (body es ++ "e"%byte :: rest) off = DOk v' rest' off' -> fills v es v' /\ rest' = rest.
Proof.
  induction es as [|e es IH]; intros n v lk rest off v' rest' off' F A E; (destruct n as [|n]; [discriminate|]); rewrite decode_struct_S in E.
  - cbn in E. injection E as <- <- _. split; [constructor|reflexivity].
  - inversion F as [|? ? Fe Fs]; subst. inversion A as [|? ? A' Al]; subst. cbn [map] in *. inversion Al as [|? ? Lt _]; subst.
    unfold body in E. cbn [map concat] in E. fold (body es) in E. rewrite <- !app_assoc in E.
    destruct (key_start e Fe) as (c & kt & Ek & Ne). destruct Fe as [Lk Lv].
    destruct (read_str_lax _ _ (en_vtext e ++ body es ++ "e"%byte :: rest) off Lk) as (ls & _ & R). rewrite Ek in *. cbn [app] in *. rewrite Ne, R, Lt in E. cbn [negb] in E.
    destruct (assoc (en_key e) (key_to_field t)) as [f|] eqn:Ef.
    + destruct (path_get (f_index f) t fl v) as [[[ft ffl] x]|] eqn:Ep; [|discriminate].
      destruct (decode C n ft ffl x _ _) as [x' r o|? ?| |] eqn:Ed; try discriminate.
      destruct (decode_any_rest _ _ _ _ _ _ _ _ _ _ Lv Ed) as [-> Dn]. destruct (IH _ _ _ _ _ _ _ _ Fs A' E) as [Fi ->].
      split; [eapply fills_known; eauto|reflexivity].
    + destruct (consume n _ _) as [o' r o|?| |] eqn:Ed; try discriminate.
      destruct (consume_sound _ _ _ _ _ _ Ed) as (Ei & _ & b & Lb). destruct Lv as (b' & Lv).
      assert (o' = en_vtext e /\ r = body es ++ "e"%byte :: rest) as [-> ->].
      { apply lax_lax_typed in Lb. destruct (Nat.le_ge_cases (List.length (en_vtext e)) (List.length o')) as [H|H].
        - assert (P : o' = en_vtext e ++ skipn (List.length (en_vtext e)) o').
          { rewrite <- (firstn_skipn (List.length (en_vtext e)) o') at 1. f_equal. pose proof (f_equal (firstn (List.length (en_vtext e))) Ei) as G.
            rewrite !firstn_app, firstn_all, Nat.sub_diag, firstn_O, app_nil_r in G. replace (List.length (en_vtext e) - List.length o')%nat with O in G by lia.
            rewrite firstn_O, app_nil_r in G. now symmetry. }
          rewrite P in Lb. destruct (one_meaning _ _ _ _ Lv Lb) as [Q _]. rewrite Q, app_nil_r in P. subst o'. split; [reflexivity|]. now apply app_inv_head in Ei.
        - assert (P : en_vtext e = o' ++ skipn (List.length o') (en_vtext e)).
          { rewrite <- (firstn_skipn (List.length o') (en_vtext e)) at 1. f_equal. pose proof (f_equal (firstn (List.length o')) Ei) as G.
            rewrite !firstn_app, firstn_all, Nat.sub_diag, firstn_O, app_nil_r in G. replace (List.length o' - List.length (en_vtext e))%nat with O in G by lia.
            now rewrite firstn_O, app_nil_r in G. }
          rewrite P in Lv. destruct (one_meaning _ _ _ _ Lb Lv) as [Q _]. rewrite Q, app_nil_r in P. rewrite P in *. split; [reflexivity|]. now apply app_inv_head in Ei. }
      destruct (IH _ _ _ _ _ _ _ _ Fs A' E) as [Fi ->]. split; [|reflexivity]. apply fills_foreign; eauto.
Qed.
Lemma struct_mono n m v lk inp off r rest off' : (n <= m)%nat -> decode_struct C n t fl v lk inp off = DOk r rest off' -> decode_struct C m t fl v lk inp off = DOk r rest off'.
Proof. intros H E. induction H as [|m H IH]; [exact E|]. apply (decode_mono_mut C m); [exact IH|discriminate]. Qed.
Lemma fills_complete v es v' : fills v es v' -> forall lk rest, Forall entry_ok es -> ascending (lk :: map en_key es) ->
  exists n, forall off, decode_struct C n t fl v lk (body es ++ "e"%byte :: rest) off = DOk v' rest (off + zlen (body es) + 1).
Proof.
  induction 1 as [v|v e es f ft ffl x x' v' Ef Ep (n1 & D) _ IH|v e es v' Ef (b & L) _ IH]; intros lk rest F A.
  - exists 1%nat. intros off. rewrite decode_struct_S. cbn. now rewrite Z.add_0_r.
  - inversion F as [|? ? Fe Fs]; subst. inversion A as [|? ? A' Al]; subst. cbn [map] in *. inversion Al as [|? ? Lt _]; subst.
    destruct (IH _ rest Fs A') as (n2 & H2). exists (S (Nat.max n1 n2)). intros off. rewrite decode_struct_S.
    unfold body. cbn [map concat]. fold (body es). rewrite <- !app_assoc. destruct (key_start e Fe) as (c & kt & Ek & Ne).
    destruct Fe as [Lk Lv]. destruct (read_str_lax _ _ (en_vtext e ++ body es ++ "e"%byte :: rest) off Lk) as (ls & _ & R).
    rewrite Ek in *. cbn [app] in *. rewrite Ne, R, Lt, Ef, Ep. cbn [negb].
    rewrite (decode_mono C n1 (Nat.max n1 n2) _ _ _ _ _ _ ltac:(lia) (D _ _)) by discriminate.
    rewrite (struct_mono n2 (Nat.max n1 n2) _ _ _ _ _ _ _ ltac:(lia) (H2 _)). f_equal. rewrite !zlen_cons, !zlen_app. lia.
  - inversion F as [|? ? Fe Fs]; subst. inversion A as [|? ? A' Al]; subst. cbn [map] in *. inversion Al as [|? ? Lt _]; subst.
    destruct (IH _ rest Fs A') as (n2 & H2). set (n1 := (2 * List.length (en_vtext e) + 1)%nat). exists (S (Nat.max n1 n2)). intros off. rewrite decode_struct_S.
    unfold body. cbn [map concat]. fold (body es). rewrite <- !app_assoc. destruct (key_start e Fe) as (c & kt & Ek & Ne).
    destruct Fe as [Lk Lv]. destruct (read_str_lax _ _ (en_vtext e ++ body es ++ "e"%byte :: rest) off Lk) as (ls & _ & R).
    rewrite Ek in *. cbn [app] in *. rewrite Ne, R, Lt, Ef. cbn [negb].
    rewrite (consume_complete _ _ L) by (unfold n1; lia).
    rewrite (struct_mono n2 (Nat.max n1 n2) _ _ _ _ _ _ _ ltac:(lia) (H2 _)). f_equal. rewrite !zlen_cons, !zlen_app. lia.
Qed.
Lemma fills_filter keep es : (forall e, In e es -> keep e = false -> assoc (en_key e) (key_to_field t) = None /\ exists b, lax b (en_vtext e)) ->
  forall v v', fills v es v' <-> fills v (filter keep es) v'.
Proof.
  induction es as [|e es IH]; intros H v v'; [reflexivity|]. cbn [filter].
  assert (IH' : forall v v', fills v es v' <-> fills v (filter keep es) v') by (apply IH; intros; apply H; auto; now right).
  destruct (keep e) eqn:K.
  - split; intros Q; inversion Q; subst; try (eapply fills_known; eauto; now apply IH'); apply fills_foreign; auto; now apply IH'.
  - destruct (H e (or_introl eq_refl) K) as [N L]. split; intros Q.
    + inversion Q; subst; [congruence|]. now apply IH'.
    + apply fills_foreign; auto. now apply IH'.
Qed.
End Ignore.

Lemma unmarshal_some C t old inp : exists n, unmarshal C t old inp = decode C n (TPtr t) fl_root_val (VPtr old) inp 0.
Proof. unfold unmarshal. eexists. reflexivity. Qed.
Lemma struct_decodes C t old es v rest : plain_struct t -> Forall entry_ok es -> ascending_nonempty (map en_key es) ->
  (exists off, unmarshal C t old (dict_text es ++ rest) = DOk v rest off) <-> exists x, v = VPtr x /\ fills C t (fl_elem fl_root_val) old es x.
Proof.
  intros [K N] F A.
  assert (I : impl m_unmarsh t = None). { unfold impl, ptr_impl in *. destruct t; try reflexivity; try discriminate. destruct (m_unmarsh ms); [discriminate|reflexivity]. }
  assert (IP : impl m_unmarsh (TPtr t) = None). { unfold impl, ptr_impl in *. destruct t; try reflexivity. destruct (m_unmarsh ms); [discriminate|reflexivity]. }
  assert (P : is_ptr t = false). { unfold is_ptr, kind_struct in *. destruct (under t); try reflexivity; discriminate. }
  assert (ST : forall n inp off, decode C (S (S n)) (TPtr t) fl_root_val (VPtr old) ("d"%byte :: inp) off = dmap VPtr (decode_struct C n t (fl_elem fl_root_val) old [] inp (off + 1))).
  { intros n inp off. rewrite decode_S. change (is_ptr (TPtr t)) with true. cbn [negb andb under]. rewrite IP. rewrite decode_S, P. cbn [negb andb fl_addr fl_elem]. rewrite N, I.
    unfold kind_struct in K. destruct (under t); try discriminate. reflexivity. }
  assert (T : dict_text es ++ rest = "d"%byte :: body es ++ "e"%byte :: rest).
  { unfold dict_text, body. cbn [app]. now rewrite <- app_assoc. }
  rewrite T. split.
  - intros (off & E). destruct (unmarshal_some C t old ("d"%byte :: body es ++ "e"%byte :: rest)) as (n0 & En). rewrite En in E. clear En. destruct n0 as [|[|n]]; [discriminate| |].
    { exfalso. rewrite decode_S in E. change (is_ptr (TPtr t)) with true in E. cbn [negb andb under] in E. rewrite IP in E. discriminate. }
    rewrite ST in E. apply dmap_ok in E as (x & E & ->). exists x. split; [reflexivity|].
    eapply fills_sound; [exact F|exact A|exact E].
  - intros (x & -> & Q). destruct (fills_complete C t (fl_elem fl_root_val) _ _ _ Q [] rest F A) as (n & H).
    exists (0 + 1 + zlen (body es) + 1). apply (unmarshal_eq C (S (S n))); [|discriminate]. rewrite ST, H. reflexivity.
Qed.
Lemma foreign_ignored C t old es keep v rest : plain_struct t -> Forall entry_ok es -> ascending_nonempty (map en_key es) ->
  (forall e, In e es -> keep e = false -> foreign t e) ->
  (exists off, unmarshal C t old (dict_text es ++ rest) = DOk v rest off) <-> (exists off, unmarshal C t old (dict_text (filter keep es) ++ rest) = DOk v rest off).
Proof.
  intros P F A H.
  assert (F' : Forall entry_ok (filter keep es)).
  { apply Forall_forall. intros e He. apply filter_In in He as [He _]. exact (proj1 (Forall_forall _ _) F e He). }
  assert (A' : ascending_nonempty (map en_key (filter keep es))).
  { unfold ascending_nonempty in *. inversion A as [|? ? A1 A2]; subst. constructor; [now apply ascending_filter|].
    apply Forall_forall. intros k Hk. apply in_map_iff in Hk as (e & <- & He). apply filter_In in He as [He _].
    apply (proj1 (Forall_forall _ _) A2). now apply in_map. }
  rewrite (struct_decodes C t old es v rest P F A), (struct_decodes C t old _ v rest P F' A').
  assert (Q : forall e, In e es -> keep e = false -> assoc (en_key e) (key_to_field t) = None /\ exists b, lax b (en_vtext e)).
  { intros e He Ke. destruct (H e He Ke) as [N L]. split; [|exact L]. destruct (assoc (en_key e) (key_to_field t)) as [f|] eqn:E; [|reflexivity].
    destruct (N (f_index f)). now apply resolve_has_key. }
  split; intros (x & E & G); exists x; (split; [exact E|]); now apply (fills_filter C t _ keep es Q).
Qed.
