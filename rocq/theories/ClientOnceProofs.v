(** On a connection, a piece is announced at most once. *)
From Verif Require Import GoBase GoBaseProofs Bitfield BitfieldSpec GoMap PeerWire Metainfo MetainfoSpec Fs Storage StorageSpec StorageSysSpec Node NodeSpec NodeThms P2PConn P2PConnSpec Client ClientSpec ClientProofs ClientWireThms P2PHaveSpec.
From Verif Require P2PServerSpec P2POnceProofs.
Import P2PServer.

Section Once.
Variable sha1 : bytes -> bytes.
Variable cfg : config.
Variable env : nat -> Fs.choice.
Variable hash id : bytes.
Hypothesis ok : config_ok cfg.
Hypothesis fits : i_piece_length (c_info cfg) <= 2 ^ 63 - 16384.
Notation client_run := (client_run sha1 cfg env hash id).

Lemma haves_written i p ev : haves i (written p ev) = haves i (wire_sent p ev).
Proof.
  unfold written, wire_sent. induction (conn_events p ev) as [|x l IH]; [reflexivity|]. cbn [flat_map]. destruct x; try exact IH.
  unfold haves in *. rewrite !filter_app, IH. destruct (Z.eqb_spec (m_type m) REQUEST) as [E|]; [|reflexivity]. cbn [filter]. rewrite E. reflexivity.
Qed.
Lemma haves_told i p ev : (forall m, In (NServed p m) ev -> m_type m = PIECE) -> zlen (haves i (ClientSpec.told p ev)) = P2PServerSpec.count (have_sent p i) (srv_events ev).
Proof.
  unfold ClientSpec.told, srv_events, P2PServerSpec.count, haves. intros P. induction ev as [|x l IH]; [reflexivity|]. cbn [flat_map]. rewrite !filter_app.
  specialize (IH (fun m I => P m (or_intror I))). unfold zlen in *. rewrite !app_length.
  destruct x as [x| |q m]; cbn [filter List.length Nat.add]; try exact IH.
  - destruct x; cbn [filter List.length have_sent Nat.add]; try exact IH. destruct (Nat.eqb p p0); cbn [andb filter List.length Nat.add]; [|exact IH]. destruct (_ && _); cbn [List.length Nat.add]; lia.
  - destruct (Nat.eqb_spec p q) as [->|]; cbn [filter List.length Nat.add]; [|exact IH]. rewrite (P m (or_introl eq_refl)). cbn [Z.eqb andb List.length Nat.add]. exact IH.
Qed.
Theorem written_once f l c ev p i : client_run f l c ev -> zlen (haves i (written p ev)) <= 1.
Proof using ok fits.
  intros R. rewrite haves_written, (proj1 (wire_agrees sha1 cfg env hash id ok fits _ _ _ _ p R)). destruct (client_node _ _ _ _ _ _ _ _ _ R) as [l' NR].
  rewrite haves_told.
  - apply (open_run sha1 cfg env hash id ok) in NR as (U & tick & ls & w & es & blank & E & B & N & M).
    destruct (server_run sha1 cfg env hash id blank ok f tick ls w es U E B _ _ N) as [sl SR]. apply (P2POnceProofs.told_once _ _ _ _ _ _ _ i p SR).
  - intros m I. destruct (uploads sha1 cfg env hash id ok _ _ _ _ _ _ NR I) as (m' & d & _ & _ & -> & _). reflexivity.
Qed.
End Once.
