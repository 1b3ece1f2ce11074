(** The text of a metainfo file. *)
From Verif Require Import GoBase GoBaseProofs Strconv BencTypes BencFields BencEncode BencDecode BencSpec BencSpecProofs BencEncodeProofs BencDepthProofs BencRoundSpec BencRoundProofs BencApiProofs Metainfo MetainfoSpec MetainfoProofs MetainfoTextSpec.
From Coq Require Import Sorting.Sorted.

Fixpoint btext (v : bval) : bytes :=
  match v with
  | BInt z => enc_int z
  | BStr s => enc_str s
  | BList l => "l"%byte :: concat (map btext l) ++ ["e"%byte]
  | BDict m => "d"%byte :: concat (map (fun p => enc_str (fst p) ++ btext (snd p)) m) ++ ["e"%byte]
  end.
Lemma btext_list l : Forall (fun v => bep3 v (btext v)) l -> bep3 (BList l) (btext (BList l)).
Proof. intros F. cbn [btext]. apply bep3_list. induction F; constructor; auto. Qed.
Lemma btext_dict m : ascending (map fst m) -> Forall (fun p => bep3 (snd p) (btext (snd p))) m -> bep3 (BDict m) (btext (BDict m)).
Proof.
  intros A F. pose proof (bep3_dict_intro (map fst m) (map snd m) (map btext (map snd m)) A) as H. rewrite !map_length in H. specialize (H eq_refl).
  assert (C : combine (map fst m) (map snd m) = m). { clear. induction m as [|[k v] m IH]; [reflexivity|]. cbn. now rewrite IH. }
  rewrite C in H. cbn [btext]. replace (map (fun p => enc_str (fst p) ++ btext (snd p)) m) with (map (fun kt : bytes * bytes => fst kt ++ snd kt) (combine (map enc_str (map fst m)) (map btext (map snd m)))).
  - apply H. clear H C A. induction F; constructor; auto.
  - clear. induction m as [|[k v] m IH]; [reflexivity|]. cbn [map combine fst snd]. now rewrite IH.
Qed.
Lemma texts_ok l : bep3 (texts l) (btext (texts l)).
Proof. apply btext_list. induction l; constructor; [apply enc_str_bep3|assumption]. Qed.
Ltac sorted := repeat (apply SSorted_cons || apply SSorted_nil || apply Forall_cons || apply Forall_nil); reflexivity.
Lemma file_ok f : bep3 (file_dict f) (btext (file_dict f)).
Proof.
  apply btext_dict; unfold unless, none; destruct (f_md5 f); cbn [map fst app]; try sorted; repeat (apply Forall_cons || apply Forall_nil); cbn [snd]; try apply enc_int_bep3; try apply enc_str_bep3; apply texts_ok.
Qed.
Lemma files_ok l : bep3 (BList (map file_dict l)) (btext (BList (map file_dict l))).
Proof. apply btext_list. induction l; constructor; [apply file_ok|assumption]. Qed.
Lemma info_ok i : bep3 (info_dict i) (btext (info_dict i)).
Proof.
  apply btext_dict; unfold unless, none; destruct (i_files i) as [|f fs] eqn:E, (i_length i =? 0), (i_md5 i), (i_pieces i), (i_private i =? 0); cbn [map fst app]; try sorted;
    repeat (apply Forall_cons || apply Forall_nil); cbn [snd]; try apply enc_int_bep3; try apply enc_str_bep3; apply (files_ok (f :: fs)).
Qed.
Lemma lists_ok l : bep3 (BList (map texts l)) (btext (BList (map texts l))).
Proof. apply btext_list. induction l; constructor; [apply texts_ok|assumption]. Qed.
Lemma metainfo_ok m : bep3 (metainfo_dict m) (btext (metainfo_dict m)).
Proof.
  apply btext_dict; unfold unless, none; destruct (m_announce_list m) as [|f fs] eqn:E, (m_comment m), (m_created_by m), (m_creation m), (m_encoding m); cbn [map fst app]; try sorted;
    repeat (apply Forall_cons || apply Forall_nil); cbn [snd]; try apply enc_int_bep3; try apply enc_str_bep3; try apply info_ok; apply (lists_ok (f :: fs)).
Qed.

(** The same texts, entry by entry. *)
Definition dtx (m : list (bytes * bval)) : bytes := concat (map (fun p => enc_str (fst p) ++ btext (snd p)) m).
Lemma btext_dtx m : btext (BDict m) = "d"%byte :: dtx m ++ ["e"%byte]. Proof. reflexivity. Qed.
Lemma dtx_app a b : dtx (a ++ b) = dtx a ++ dtx b. Proof. unfold dtx. now rewrite map_app, concat_app. Qed.
Lemma dtx_cons k v r : dtx ((k, v) :: r) = enc_str k ++ btext v ++ dtx r. Proof. unfold dtx. cbn [map concat fst snd]. now rewrite <- app_assoc. Qed.
Lemma dtx_nil : dtx [] = []. Proof. reflexivity. Qed.
Definition ent (b : bool) (k t : bytes) : bytes := if b then [] else enc_str k ++ t.
Lemma dtx_unless b k v : dtx (unless b k v) = ent b k (btext v).
Proof. destruct b; [reflexivity|]. unfold unless, ent. rewrite dtx_cons, dtx_nil, app_nil_r. reflexivity. Qed.
Lemma btext_int z : btext (BInt z) = enc_int z. Proof. reflexivity. Qed.
Lemma btext_str z : btext (BStr z) = enc_str z. Proof. reflexivity. Qed.
Definition info_txt (fd : bytes) (i : info) : bytes :=
  "d"%byte :: ent (none (i_files i)) (bs "files") fd ++ ent (i_length i =? 0) (bs "length") (enc_int (i_length i)) ++ ent (none (i_md5 i)) (bs "md5sum") (enc_str (i_md5 i)) ++
  enc_str (bs "name") ++ enc_str (i_name i) ++ enc_str (bs "piece length") ++ enc_int (i_piece_length i) ++ ent (none (i_pieces i)) (bs "pieces") (enc_str (concat (i_pieces i))) ++
  ent (i_private i =? 0) (bs "private") (enc_int (i_private i)) ++ ["e"%byte].
Lemma info_txt_eq i : btext (info_dict i) = info_txt (btext (BList (map file_dict (i_files i)))) i.
Proof. unfold info_dict, info_txt. rewrite btext_dtx, !dtx_app, !dtx_unless, !dtx_cons, dtx_nil, !btext_int, !btext_str, <- !app_assoc. cbn [app]. reflexivity. Qed.
Definition meta_txt (al ib : bytes) (m : metainfo) : bytes :=
  "d"%byte :: enc_str (bs "announce") ++ enc_str (m_announce m) ++ ent (none (m_announce_list m)) (bs "announce-list") al ++ ent (none (m_comment m)) (bs "comment") (enc_str (m_comment m)) ++
  ent (none (m_created_by m)) (bs "created by") (enc_str (m_created_by m)) ++ match m_creation m with Some s => enc_str (bs "creation date") ++ enc_int (s - to_1970) | None => [] end ++
  ent (none (m_encoding m)) (bs "encoding") (enc_str (m_encoding m)) ++ enc_str (bs "info") ++ ib ++ ["e"%byte].
Lemma meta_txt_eq m : btext (metainfo_dict m) = meta_txt (btext (BList (map texts (m_announce_list m)))) (btext (info_dict (m_info m))) m.
Proof.
  unfold metainfo_dict, meta_txt. rewrite btext_dtx, !dtx_app, !dtx_unless, !dtx_cons, dtx_nil, !btext_str.
  destruct (m_creation m); rewrite ?dtx_cons, ?dtx_nil, ?btext_int, <- ?app_assoc; cbn [app]; reflexivity.
Qed.

(** * Encoding *)
Lemma fold_ok {A} (f : A -> eres) g l : (forall x, In x l -> f x = EOk (g x)) -> fold_right (fun x k => eseq (f x) k) (EOk []) l = EOk (concat (map g l)).
Proof. induction l as [|x l IH]; intros H; [reflexivity|]. cbn [fold_right map concat]. rewrite (H x) by now left. rewrite IH by (intros; apply H; now right). reflexivity. Qed.
Lemma encode_slice C n et fl d l g : kind_uint8 et = false -> (d < 1000)%nat -> (forall x, In x l -> encode C n et (fl_elem fl) (S d) x = EOk (g x)) ->
  encode C (S n) (TSlice et) fl d (VSlice l) = EOk ("l"%byte :: concat (map g l) ++ ["e"%byte]).
Proof.
  intros K Hd H. cbn [encode]. replace (if negb (is_ptr (TSlice et)) && fl_addr fl then ptr_impl m_marsh (TSlice et) else None) with (@None nat) by (destruct (fl_addr fl); reflexivity).
  cbn [impl under]. rewrite K. replace (ptr_depth_limit <? S d)%nat with false by (symmetry; apply Nat.ltb_ge; unfold ptr_depth_limit; lia).
  rewrite (fold_ok _ g) by exact H. reflexivity.
Qed.
Lemma encode_strings C n fl d l : (d < 1000)%nat -> encode C (S (S n)) (TSlice TStr) fl d (strings_val l) = EOk (btext (texts l)).
Proof.
  intros Hd. unfold strings_val, texts. rewrite (encode_slice C (S n) TStr fl d (map VStr l) (fun x => match x with VStr s => enc_str s | _ => [] end)); [|reflexivity|exact Hd|].
  - cbn [btext]. now rewrite !map_map.
  - intros x I. apply in_map_iff in I as (s & <- & _). now apply encode_str.
Qed.
Definition field_text (C : customs) (n : nat) (t : gty) (fl : flags) (d : nat) (v : gval) (f : finfo) : eres :=
  match field_by_index (f_index f) t fl v with
  | None => EErr [] d EIll
  | Some (ft, ffl, fv) => if is_nil ft fv then EOk [] else if f_omit f && is_empty_value ft fv then EOk [] else ewrite (enc_str (f_key f)) (encode C n ft ffl (S d) fv)
  end.
Lemma fields_text C n t fl d v fs txs : Forall2 (fun f tx => field_text C n t fl d v f = EOk tx) fs txs ->
  fold_right (fun f k => match field_by_index (f_index f) t fl v with
    | None => EErr [] d EIll
    | Some (ft, ffl, fv) => if is_nil ft fv then k else if f_omit f && is_empty_value ft fv then k else ewrite (enc_str (f_key f)) (eseq (encode C n ft ffl (S d) fv) k)
    end) (EOk []) fs = EOk (concat txs).
Proof.
  induction 1 as [|f tx fs txs H F IH]; [reflexivity|]. cbn [fold_right concat]. rewrite IH. clear IH. unfold field_text in H.
  destruct (field_by_index (f_index f) t fl v) as [[[ft ffl] fv]|]; [|discriminate].
  destruct (is_nil ft fv). { injection H as <-. reflexivity. } destruct (f_omit f && is_empty_value ft fv). { injection H as <-. reflexivity. }
  destruct (encode C n ft ffl (S d) fv); try discriminate. cbn [ewrite] in H. injection H as <-. cbn [eseq ewrite]. now rewrite <- app_assoc.
Qed.
Lemma encode_struct C n t nm fs fl d vs txs : (if negb (is_ptr t) && fl_addr fl then ptr_impl m_marsh t else None) = None -> impl m_marsh t = None -> under t = TStruct nm fs -> (d < 1000)%nat ->
  Forall2 (fun f tx => field_text C n t fl d (VStruct vs) f = EOk tx) (sorted_fields t) txs -> encode C (S n) t fl d (VStruct vs) = EOk ("d"%byte :: concat txs ++ ["e"%byte]).
Proof.
  intros P M U Hd F. cbn [encode]. rewrite P, M, U. replace (ptr_depth_limit <? S d)%nat with false by (symmetry; apply Nat.ltb_ge; unfold ptr_depth_limit; lia).
  rewrite (fields_text C n t fl d (VStruct vs) _ txs F). reflexivity.
Qed.
Definition file_fields : list finfo := Eval vm_compute in sorted_fields file_ty.
Lemma file_fields_eq : sorted_fields file_ty = file_fields. Proof. vm_compute. reflexivity. Qed.
Lemma encode_info_ptr C n fl d v : encode C (S n) (TPtr info_ty) fl d (VPtr v) = encode C n info_ty (fl_elem fl) d v.
Proof. reflexivity. Qed.
Definition meta_fields : list finfo := Eval vm_compute in sorted_fields metainfo_ty.
Lemma meta_fields_eq : sorted_fields metainfo_ty = meta_fields. Proof. vm_compute. reflexivity. Qed.
Ltac field := unfold field_text; cbn [f_index f_key f_omit];
  match goal with |- context [field_by_index ?p ?t ?fl ?v] => let r := eval cbn in (field_by_index p t fl v) in replace (field_by_index p t fl v) with r by reflexivity end; cbn iota.
Definition file_txt (f : file) : bytes := "d"%byte :: enc_str (bs "length") ++ enc_int (f_length f) ++ ent (none (f_md5 f)) (bs "md5sum") (enc_str (f_md5 f)) ++ enc_str (bs "path") ++ btext (texts (f_path f)) ++ ["e"%byte].
Lemma file_txt_eq f : btext (file_dict f) = file_txt f.
Proof. unfold file_dict, file_txt. rewrite btext_dtx, !dtx_app, !dtx_unless, !dtx_cons, dtx_nil, !btext_int, !btext_str, <- !app_assoc. cbn [app]. reflexivity. Qed.
Lemma ent_fold (b : bool) k t : (if b then EOk [] else ewrite (enc_str k) (EOk t)) = EOk (ent b k t).
Proof. destruct b; reflexivity. Qed.
Lemma empty_str z : is_empty_value TStr (VStr z) = none z. Proof. destruct z; reflexivity. Qed.
Lemma encode_file C n fl d f : (d < 995)%nat -> encode C (S (S (S n))) file_ty fl d (file_val f) = EOk (btext (file_dict f)).
Proof.
  intros Hd. set (m := S (S n)).
  assert (XInt : forall w fl d z, encode C m (TInt w) fl d (VInt z) = EOk (enc_int z)) by (intros; apply encode_int).
  assert (XStr : forall fl d z, encode C m TStr fl d (VStr z) = EOk (enc_str z)) by (intros; now apply encode_str).
  assert (XSs : forall fl d l, (d < 1000)%nat -> encode C m (TSlice TStr) fl d (strings_val l) = EOk (btext (texts l))) by (intros; now apply encode_strings).
  clearbody m. unfold file_val.
  rewrite (encode_struct C m file_ty (bs "File") (struct_fields file_ty) fl d _
    [enc_str (bs "length") ++ enc_int (f_length f); ent (none (f_md5 f)) (bs "md5sum") (enc_str (f_md5 f)); enc_str (bs "path") ++ btext (texts (f_path f))]);
    [|destruct (fl_addr fl); reflexivity|reflexivity|reflexivity|lia|].
  - rewrite file_txt_eq. unfold file_txt. cbn [concat]. rewrite <- !app_assoc. cbn [app]. reflexivity.
  - rewrite file_fields_eq. unfold file_fields. repeat (apply Forall2_cons || apply Forall2_nil); field.
    + rewrite XInt. reflexivity.
    + rewrite XStr. cbn [is_nil under andb]. rewrite empty_str. apply ent_fold.
    + fold (strings_val (f_path f)). rewrite XSs by lia. reflexivity.
Qed.
Lemma encode_files C n fl d l : (d < 990)%nat -> l <> [] -> encode C (S (S (S (S (S n))))) (TSlice (TPtr file_ty)) fl d (slice_val (map (fun f => VPtr (file_val f)) l)) = EOk (btext (BList (map file_dict l))).
Proof.
  intros Hd N. replace (slice_val (map (fun f => VPtr (file_val f)) l)) with (VSlice (map (fun f => VPtr (file_val f)) l)) by (destruct l; [contradiction|reflexivity]).
  pose (un := fun x => match x with VPtr (VStruct [VInt a; VStr b; VSlice c]) => {| f_length := a; f_md5 := b; f_path := map (fun y => match y with VStr s => s | _ => [] end) c |} | _ => {| f_length := 0; f_md5 := []; f_path := [] |} end).
  assert (U : forall f, un (VPtr (file_val f)) = f). { intros [a b c]. unfold un. cbn. f_equal. rewrite map_map. apply map_id. }
  rewrite (encode_slice C _ (TPtr file_ty) fl d _ (fun x => btext (file_dict (un x)))); [|reflexivity|lia|].
  - cbn [btext]. rewrite !map_map. rewrite (map_ext (fun x => btext (file_dict (un (VPtr (file_val x))))) (fun x => btext (file_dict x))); [reflexivity|]. intros f. now rewrite U.
  - intros x I. apply in_map_iff in I as (f & <- & _). rewrite U.
    change (encode C (S (S (S n))) file_ty (fl_elem (fl_elem fl)) (S d) (file_val f) = EOk (btext (file_dict f))). apply encode_file. lia.
Qed.
Lemma encode_lists C n fl d l : (d < 990)%nat -> l <> [] -> encode C (S (S (S n))) (TSlice (TSlice TStr)) fl d (slice_val (map strings_val l)) = EOk (btext (BList (map texts l))).
Proof.
  intros Hd N. replace (slice_val (map strings_val l)) with (VSlice (map strings_val l)) by (destruct l; [contradiction|reflexivity]).
  pose (un := fun x => match x with VSlice c => map (fun y => match y with VStr s => s | _ => [] end) c | _ => [] end).
  assert (U : forall f, un (strings_val f) = f). { intros f. unfold un. cbn. rewrite map_map. apply map_id. }
  rewrite (encode_slice C _ (TSlice TStr) fl d _ (fun x => btext (texts (un x)))); [|reflexivity|lia|].
  - cbn [btext]. rewrite !map_map. rewrite (map_ext (fun x => btext (texts (un (strings_val x)))) (fun x => btext (texts x))); [reflexivity|]. intros f. now rewrite U.
  - intros x I. apply in_map_iff in I as (f & <- & _). rewrite U. apply encode_strings. lia.
Qed.
Lemma encode_info_any C n fl d i : c_marsh C pieces_id = pieces_marshal -> fl_addr fl = true -> (d < 900)%nat ->
  encode C (S (S (S (S (S (S n)))))) info_ty fl d (info_val i) = EOk (btext (info_dict i)).
Proof.
  intros HC Ad Hd. set (m := S (S (S (S (S n))))).
  assert (XInt : forall w fl d z, encode C m (TInt w) fl d (VInt z) = EOk (enc_int z)) by (intros; apply encode_int).
  assert (XStr : forall fl d z, encode C m TStr fl d (VStr z) = EOk (enc_str z)) by (intros; now apply encode_str).
  assert (XPc : forall fl d hs, fl_addr fl = true -> fl_ro fl = false -> encode C m pieces_ty fl d (pieces_val hs) = EOk (enc_str (concat hs))) by (intros; now apply encode_pieces).
  assert (XFs : forall l fl d, (d < 990)%nat -> l <> [] -> encode C m (TSlice (TPtr file_ty)) fl d (slice_val (map (fun f => VPtr (file_val f)) l)) = EOk (btext (BList (map file_dict l)))) by (intros; now apply encode_files).
  clearbody m. unfold info_val.
  rewrite (encode_struct C m info_ty (bs "Info") (struct_fields info_ty) fl d _
    [ent (none (i_files i)) (bs "files") (btext (BList (map file_dict (i_files i)))); ent (i_length i =? 0) (bs "length") (enc_int (i_length i)); ent (none (i_md5 i)) (bs "md5sum") (enc_str (i_md5 i));
     enc_str (bs "name") ++ enc_str (i_name i); enc_str (bs "piece length") ++ enc_int (i_piece_length i); ent (none (i_pieces i)) (bs "pieces") (enc_str (concat (i_pieces i)));
     ent (i_private i =? 0) (bs "private") (enc_int (i_private i))]);
    [|destruct (fl_addr fl); reflexivity|reflexivity|reflexivity|lia|].
  - rewrite info_txt_eq. unfold info_txt. cbn [concat]. rewrite <- !app_assoc. cbn [app]. reflexivity.
  - rewrite info_fields_eq. unfold info_fields. remember (slice_val (map (fun f => VPtr (file_val f)) (i_files i))) as fv eqn:Ef. remember (hash_val (i_sha1 i)) as hv eqn:Eh. clear Eh.
    repeat (apply Forall2_cons || apply Forall2_nil); field.
    + subst fv. destruct (i_files i) as [|f fs]; [reflexivity|]. rewrite XFs by (discriminate || lia). reflexivity.
    + rewrite XInt. cbn [is_nil under andb is_empty_value]. apply ent_fold.
    + rewrite XStr. cbn [is_nil under andb]. rewrite empty_str. apply ent_fold.
    + rewrite XStr. reflexivity.
    + rewrite XInt. reflexivity.
    + rewrite XPc by (cbn; rewrite ?Ad; reflexivity). destruct (i_pieces i) as [|h hs]; reflexivity.
    + rewrite XInt. cbn [is_nil under andb is_empty_value]. apply ent_fold.
Qed.
Lemma encode_time C n fl d s : c_marsh C time_id = time_marshal -> fl_ro fl = false -> - 2 ^ 63 <= s - to_1970 < 2 ^ 63 ->
  encode C (S n) (TPtr time_ty) fl d (VPtr (VStruct [VInt s])) = EOk (enc_int (s - to_1970)).
Proof.
  intros HC Ro R. cbn [encode]. cbn [is_ptr time_ty under negb andb impl ptr_impl m_marsh]. unfold enc_marshaler. rewrite Ro, HC. cbn [time_marshal].
  rewrite wrap_s_small by (unfold unix_to_internal, to_1970 in *; lia). reflexivity.
Qed.
Lemma encode_meta_any C n fl d m : c_marsh C pieces_id = pieces_marshal -> c_marsh C time_id = time_marshal -> fl_ro fl = false -> (d < 800)%nat ->
  (forall s, m_creation m = Some s -> - 2 ^ 63 <= s - to_1970 < 2 ^ 63) ->
  encode C (S (S (S (S (S (S (S (S n)))))))) metainfo_ty fl d (metainfo_val m) = EOk (btext (metainfo_dict m)).
Proof.
  intros HC HT Ro Hd Cr.
  assert (XI : forall fl d i, (d < 900)%nat -> encode C (S (S (S (S (S (S (S n))))))) (TPtr info_ty) fl d (VPtr (info_val i)) = EOk (btext (info_dict i))).
  { intros fl' d' i Hd'. rewrite encode_info_ptr. now apply encode_info_any. }
  set (k := S (S (S (S (S (S (S n))))))) in *.
  assert (XStr : forall fl d z, encode C k TStr fl d (VStr z) = EOk (enc_str z)) by (intros; now apply encode_str).
  assert (XLs : forall l fl d, (d < 990)%nat -> l <> [] -> encode C k (TSlice (TSlice TStr)) fl d (slice_val (map strings_val l)) = EOk (btext (BList (map texts l)))) by (intros; now apply encode_lists).
  assert (XT : forall s fl d, fl_ro fl = false -> - 2 ^ 63 <= s - to_1970 < 2 ^ 63 -> encode C k (TPtr time_ty) fl d (VPtr (VStruct [VInt s])) = EOk (enc_int (s - to_1970))) by (intros; now apply encode_time).
  clearbody k. unfold metainfo_val.
  rewrite (encode_struct C k metainfo_ty (bs "Metainfo") (struct_fields metainfo_ty) fl d _
    [enc_str (bs "announce") ++ enc_str (m_announce m); ent (none (m_announce_list m)) (bs "announce-list") (btext (BList (map texts (m_announce_list m)))); ent (none (m_comment m)) (bs "comment") (enc_str (m_comment m));
     ent (none (m_created_by m)) (bs "created by") (enc_str (m_created_by m)); match m_creation m with Some s => enc_str (bs "creation date") ++ enc_int (s - to_1970) | None => [] end;
     ent (none (m_encoding m)) (bs "encoding") (enc_str (m_encoding m)); enc_str (bs "info") ++ btext (info_dict (m_info m))]);
    [|destruct (fl_addr fl); reflexivity|reflexivity|reflexivity|lia|].
  - rewrite meta_txt_eq. unfold meta_txt. cbn [concat]. rewrite <- !app_assoc. cbn [app]. reflexivity.
  - rewrite meta_fields_eq. unfold meta_fields. remember (slice_val (map strings_val (m_announce_list m))) as av eqn:Ea. remember (info_val (m_info m)) as iv eqn:Ei.
    repeat (apply Forall2_cons || apply Forall2_nil); field.
    + rewrite XStr. reflexivity.
    + subst av. destruct (m_announce_list m) as [|f fs]; [reflexivity|]. rewrite XLs by (discriminate || lia). reflexivity.
    + rewrite XStr. cbn [is_nil under andb]. rewrite empty_str. apply ent_fold.
    + rewrite XStr. cbn [is_nil under andb]. rewrite empty_str. apply ent_fold.
    + destruct (m_creation m) as [s|]; [|reflexivity]. rewrite XT; [reflexivity|cbn; rewrite ?Ro; reflexivity|auto].
    + rewrite XStr. cbn [is_nil under andb]. rewrite empty_str. apply ent_fold.
    + subst iv. rewrite XI by lia. reflexivity.
Qed.
Lemma depth_hash h : (vdepth (hash_val h) <= 2)%nat.
Proof. cbn [hash_val vdepth]. apply le_n_S, fold_max_le. intros y Hy. apply in_map_iff in Hy as (b & <- & _). cbn. lia. Qed.
Lemma depth_strings l : (vdepth (strings_val l) <= 2)%nat.
Proof. cbn [strings_val vdepth]. apply le_n_S, fold_max_le. intros y Hy. apply in_map_iff in Hy as (b & <- & _). cbn. lia. Qed.
Lemma depth_slice l n : (forall x, In x l -> (vdepth x <= n)%nat) -> (vdepth (slice_val l) <= S n)%nat.
Proof. destruct l as [|y l]; intros H; [cbn; lia|]. cbn [slice_val]. remember (y :: l) as q. cbn [vdepth]. apply le_n_S, fold_max_le. exact H. Qed.
Lemma depth_info i : (vdepth (info_val i) <= 6)%nat.
Proof.
  unfold info_val. cbn [vdepth]. apply le_n_S, fold_max_le. intros x Hx. cbn [In] in Hx.
  repeat (destruct Hx as [<-|Hx]; [try (cbn; lia)|]); [| | |destruct Hx].
  - pose proof (depth_hash (i_sha1 i)). lia.
  - destruct (i_pieces i) as [|h hs]; [cbn; lia|]. cbn [pieces_val]. remember (h :: hs) as q. cbn [vdepth]. apply le_n_S. apply Nat.le_trans with 2%nat; [|lia]. apply fold_max_le. intros y Hy. apply in_map_iff in Hy as (b & <- & _). apply depth_hash.
  - apply depth_slice. intros y Hy. apply in_map_iff in Hy as (f & <- & _). cbn [vdepth file_val fold_right]. pose proof (depth_strings (f_path f)). lia.
Qed.
Lemma depth_meta m : (vdepth (metainfo_val m) <= 8)%nat.
Proof.
  unfold metainfo_val. cbn [vdepth]. apply le_n_S, fold_max_le. intros x Hx. cbn [In] in Hx.
  repeat (destruct Hx as [<-|Hx]; [try (cbn; lia)|]); [| | |destruct Hx].
  - cbn [vdepth]. pose proof (depth_info (m_info m)). lia.
  - pose proof (depth_slice (map strings_val (m_announce_list m)) 2). rewrite H; [lia|]. intros y Hy. apply in_map_iff in Hy as (q & <- & _). apply depth_strings.
  - destruct (m_creation m); cbn; lia.
Qed.
Section Final.
Variable sha1 : bytes -> bytes.
Theorem info_written i : exists b, marshal (meta_customs sha1) (Some (TPtr info_ty, VPtr (info_val i))) = EOk b /\ bep3 (info_dict i) b.
Proof.
  exists (btext (info_dict i)). split; [|apply info_ok]. apply (marshal_eq _ 9); [|cbn [vdepth]; pose proof (depth_info i); lia].
  rewrite encode_info_ptr. apply encode_info_any; [reflexivity|reflexivity|lia].
Qed.
Theorem metainfo_written m : (forall s, m_creation m = Some s -> - 2 ^ 63 <= s - to_1970 < 2 ^ 63) ->
  exists b, marshal (meta_customs sha1) (Some (TPtr metainfo_ty, VPtr (metainfo_val m))) = EOk b /\ bep3 (metainfo_dict m) b.
Proof.
  intros Cr. exists (btext (metainfo_dict m)). split; [|apply metainfo_ok]. apply (marshal_eq _ 11); [|cbn [vdepth]; pose proof (depth_meta m); lia].
  rewrite encode_meta_ptr. apply encode_meta_any; [reflexivity|reflexivity|reflexivity|lia|exact Cr].
Qed.
End Final.
