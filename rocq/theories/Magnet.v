(** Model of api/magnet/magnet.go. *)
From Verif Require Import GoBase Strconv Url.

(** type Magnet (magnet.go:8-15). *)
Record magnet := {
  mg_topic : bytes; mg_name : bytes; mg_length : Z; mg_trackers : list bytes;
  mg_web_seed : bytes; mg_peers : list bytes }.

Section WithUrl.
Variable hier_ok : bytes -> bytes -> bool.
(** ParseMagnetURL (magnet.go:17-37). *)
Definition parse_magnet (link : bytes) : option magnet :=
  match url_parse_query hier_ok link with
  | None => None
  | Some q =>
      let query := fst (parse_query q) in
      let ma := fun len => {|
        mg_topic := values_get (bs "xt") query;
        mg_name := values_get (bs "dn") query;
        mg_length := len;
        mg_trackers := values_all (bs "tr") query;
        mg_web_seed := values_get (bs "ws") query;
        mg_peers := values_all (bs "x.pe") query |} in
      let xl := values_get (bs "xl") query in
      match xl with
      | [] => Some (ma 0)
      | _ => match atoi xl with
             | Some n => Some (ma n)
             | None => None
             end
      end
  end.
End WithUrl.
