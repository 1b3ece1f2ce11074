(** Names of peers, and why connections are refused. *)
From Coq Require Import Permutation.
From Verif Require Import GoBase GoBaseProofs Bitfield BitfieldSpec BitfieldProofs GoMap PeerWire Strconv Url NetIP NetIPProofs Tracker P2PPeer P2PServer P2PServerSpec P2PEndSpec P2PServerProofs P2PSortProofs P2PAnnounceProofs P2PRegistryProofs P2PLockProofs P2PServerThms.

Definition plain (s : bytes) : Prop := ~ In "["%byte s.
Lemma plain_app a b : plain a -> plain b -> plain (a ++ b).
Proof. unfold plain. rewrite in_app_iff. tauto. Qed.
Lemma plain_join c l : c <> "["%byte -> Forall plain l -> plain (join c l).
Proof.
  intros C F. induction F as [|x l X F IH]; [intros []|]. cbn. destruct l as [|y l]; [exact X|]. intros I. apply in_app_or in I as [I|[I|I]]; [exact (X I)|congruence|exact (IH I)].
Qed.
Lemma plain_octet b : plain (format_Z (b2z b)).
Proof. intros I. apply octet_clean in I. discriminate I. Qed.
Lemma plain_v4 q : plain (show_v4 q).
Proof. apply plain_join; [discriminate|]. apply Forall_forall. intros x I. apply in_map_iff in I as (b & <- & _). apply plain_octet. Qed.
Lemma plain_hex n : 0 <= n < 16 -> lower_hex n <> "["%byte.
Proof.
  intros N E. unfold lower_hex in E. apply (f_equal b2z) in E. rewrite b2z_z2b in E. change (b2z "["%byte) with 91 in E.
  destruct (Z.ltb_spec n 10); rewrite Z.mod_small in E by lia; lia.
Qed.
Lemma plain_one n : 0 <= n < 16 -> plain [lower_hex n]. Proof. intros N [I|[]]. exact (plain_hex _ N I). Qed.
Lemma plain_group g : 0 <= g < 65536 -> plain (show_group g).
Proof.
  intros G. unfold show_group. repeat apply plain_app; try (destruct (_ <=? _); [|intros []]); apply plain_one; try (apply Z.mod_pos_bound; lia).
  split; [apply Z.div_pos; lia|apply Z.div_lt_upper_bound; lia].
Qed.
Lemma group_range ip g : In g (groups ip) -> 0 <= g < 65536.
Proof.
  revert ip g. fix IH 1. intros [|a [|b ip]]; cbn; try tauto. specialize (IH ip). intros g [<-|I]; [|auto]. unfold get_u16. pose proof (b2z_range a). pose proof (b2z_range b). lia.
Qed.
Lemma plain_groups l : (forall g, In g l -> 0 <= g < 65536) -> plain (join ":"%byte (map show_group l)).
Proof. intros L. apply plain_join; [discriminate|]. apply Forall_forall. intros x I. apply in_map_iff in I as (g & <- & I). apply plain_group. auto. Qed.
Lemma in_firstn {A} k (l : list A) x : In x (firstn k l) -> In x l. Proof. revert k. induction l as [|y l IH]; intros [|k]; cbn; try tauto. intros [H|H]; eauto. Qed.
Lemma in_skipn {A} k (l : list A) x : In x (skipn k l) -> In x l. Proof. revert k. induction l as [|y l IH]; intros [|k]; cbn; try tauto. eauto. Qed.
Lemma plain_ip ip : plain (show_ip ip).
Proof.
  unfold show_ip. destruct (to4 ip); [apply plain_v4|]. unfold show_v6. pose proof (group_range ip) as R. revert R. generalize (groups ip). intros gs R. destruct (best_run 0 gs (O, O)) as [st [|len]]; [now apply plain_groups|].
  apply plain_app; [apply plain_groups; intros g I; apply R; eapply in_firstn; exact I|]. apply plain_app; [intros [I|[I|[]]]; discriminate I|]. apply plain_groups. intros g I. apply R. eapply in_skipn. exact I.
Qed.
Lemma cut_last c (a b a' b' : bytes) : ~ In c b -> ~ In c b' -> a ++ c :: b = a' ++ c :: b' -> a = a' /\ b = b'.
Proof.
  intros B B'. revert a'. induction a as [|x a IH]; intros [|y a'] E; cbn in E.
  - now injection E as ->.
  - injection E as -> E. elim B. rewrite E. apply in_elt.
  - injection E as -> E. elim B'. rewrite <- E. apply in_elt.
  - injection E as -> E. destruct (IH _ E) as [-> ->]. auto.
Qed.
Theorem names_differ x ip x' ip' : idip_of x ip = idip_of x' ip' <-> x = x' /\ show_ip ip = show_ip ip'.
Proof.
  unfold idip_of. split; [|now intros [-> ->]]. intros E. change (bs "[") with ["["%byte] in E. cbn [app] in E.
  apply cut_last in E as [-> E]; [|intros I; apply in_app_or in I as [I|[I|[]]]; [exact (plain_ip _ I)|discriminate I]..]. split; [reflexivity|]. now apply app_inv_tail in E.
Qed.

Section Refused.
Variable hash id blank : bytes.
Notation exec := (exec hash id blank).
Lemma refused_why s a s' e p : act_ok s -> exec s a = Some (s', e) -> In (EvRefused p) e ->
  exists t c h q, a = AGo t c /\ nth_error (s_threads s) t = Some (THandler p h) /\ nth_error (s_peers s) p = Some q /\ why_refused hash id s c q.
Proof.
  intros AO H X. open_exec H; cbn [In] in X; try tauto; repeat (destruct X as [X|X]; try discriminate X; try tauto); injection X as ->.
  all: match goal with T : nth_error (s_threads _) ?t = Some (THandler _ ?h), P : nth_error (s_peers _) _ = Some ?q |- _ => exists t; eexists; exists h, q; split; [reflexivity|]; split; [exact T|]; split; [exact P|] end.
  all: unfold why_refused.
  - left. now apply Z.leb_le.
  - right. left. match goal with A : mget bytes_eqb (place_of _) _ = Some ?x, B : mget bytes_eqb ?x (g_active _) = Some ?p' |- _ => exists x, p'; split; [now apply (mget_in _ beq_iff)|now apply (mget_in _ beq_iff)] end.
  - right. right. left. do 2 eexists. split; [reflexivity|]. intros i r' E. congruence.
  - right. right. left. do 2 eexists. split; [reflexivity|]. intros i r' E. congruence.
  - left. now apply Z.leb_le.
  - right. right. right. left. match goal with B : mget bytes_eqb ?x (g_active _) = Some ?p' |- _ => apply (mget_in _ beq_iff) in B; change (g_active (remember r (s_reg s))) with (g_active (s_reg s)) in B; destruct (AO _ _ B) as (q' & Q & N & _); exists p', q' end.
    split; [rewrite N; assumption|]. split; [exact Q|]. unfold name_of in N. now apply names_differ in N.
  - right. right. right. right. reflexivity.
Qed.
(** A peer that has shaken hands gets in unless there is such a reason. *)
Lemma admitted s t p q : act_ok s -> s_crashed s = false -> s_mu s = None -> nth_error (s_threads s) t = Some (THandler p HRegister) -> nth_error (s_peers s) p = Some q ->
  zlen (g_active (s_reg s)) < 50 -> (forall p' q', registered s (name_of q') p' -> nth_error (s_peers s) p' = Some q' -> q_id q' = q_id q -> show_ip (q_ip q') <> show_ip (q_ip q)) ->
  exists s', runs hash id blank s [AGo t COk; AGo t COk] = Some (s', [EvSent p (mk_bitfield (s_have s)); EvConnected p (q_id q) (q_ip q)]) /\ registered s' (name_of q) p.
Proof.
  intros AO C M T P F D. assert (NO : mget bytes_eqb (name_of q) (g_active (s_reg s)) = None).
  { destruct (mget bytes_eqb (name_of q) (g_active (s_reg s))) as [p'|] eqn:G; [|reflexivity]. exfalso. apply (mget_in _ beq_iff) in G. destruct (AO _ _ G) as (q' & Q & N & _).
    unfold name_of in N. apply names_differ in N as [N1 N2]. refine (D p' q' _ Q N1 N2). unfold registered, name_of. rewrite N1. unfold idip_of. rewrite N2. exact G. }
  cbn [P2PServer.runs]. unfold P2PServer.exec at 1. rewrite C. unfold step_thread. rewrite T. unfold step_handler. rewrite P, M. destruct (Z.leb_spec 50 (zlen (g_active (s_reg s)))); [lia|].
  change (g_active (remember q (s_reg s))) with (g_active (s_reg s)). rewrite NO. unfold P2PServer.exec. fields. rewrite C. unfold step_thread. fields. rewrite list_set_nth_eq by (apply nth_error_Some; congruence).
  unfold step_handler. fields. rewrite P. eexists. split; [reflexivity|]. unfold registered. fields. left. reflexivity.
Qed.
End Refused.

Section Final.
Variable hash id : bytes.
Variable n : Z.
Variable have : bytes.
Theorem refused_reasons l s ev a s' e p : run_of hash id n have l s ev -> goes_on hash id n s [a] s' e -> In (EvRefused p) e ->
  exists t c q, a = AGo t c /\ nth_error (s_peers s) p = Some q /\ why_refused hash id s c q.
Proof.
  intros R G X. apply run_inv in R. apply goes_one in G as [blank [_ H]]. destruct (refused_why _ _ _ _ _ _ _ _ (v_act _ _ _ R) H X) as (t & c & h & q & A & _ & Q & W). exists t, c, q. auto.
Qed.
Theorem admits l s ev t p q : run_of hash id n have l s ev -> s_crashed s = false -> s_mu s = None -> nth_error (s_threads s) t = Some (THandler p HRegister) -> nth_error (s_peers s) p = Some q ->
  zlen (g_active (s_reg s)) < 50 -> (forall p' q', registered s (name_of q') p' -> nth_error (s_peers s) p' = Some q' -> q_id q' = q_id q -> show_ip (q_ip q') <> show_ip (q_ip q)) ->
  exists s', goes_on hash id n s [AGo t COk; AGo t COk] s' [EvSent p (mk_bitfield (s_have s)); EvConnected p (q_id q) (q_ip q)] /\ registered s' (name_of q) p.
Proof.
  intros R C M T P F D. pose proof (run_inv _ _ _ _ _ _ _ R) as V. destruct R as (bl & B & _ & _). destruct (admitted hash id bl _ _ _ _ (v_act _ _ _ V) C M T P F D) as (s' & S & G). exists s'. split; [exists bl; auto|exact G].
Qed.
End Final.
