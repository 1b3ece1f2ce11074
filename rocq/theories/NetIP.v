(** Model of the parts of Go's net and net/netip (standard library) used by drip:
    ParseIP, IP.To4, IPv4 and IP.String.  An address is its 16-byte form; the lines
    cited are the uses in /repo. *)
From Verif Require Import GoBase Strconv BencFields Url.

(** One octet of a dotted address: 1 to 3 digits, no leading zero, at most 255. *)
Definition parse_octet (s : bytes) : option byte :=
  match s with
  | c :: _ :: _ => if beqb c "0"%byte then None
                   else match parse_N s with
                        | Some n => if Z.of_N n <=? 255 then Some (z2b (Z.of_N n)) else None
                        | None => None
                        end
  | _ => match parse_N s with
         | Some n => if Z.of_N n <=? 255 then Some (z2b (Z.of_N n)) else None
         | None => None
         end
  end.
(** netip.parseIPv4Fields: exactly four octets. *)
Definition parse_v4 (s : bytes) : option bytes :=
  match split_on "."%byte s with
  | [a; b; c; d] =>
      match parse_octet a, parse_octet b, parse_octet c, parse_octet d with
      | Some a, Some b, Some c, Some d => Some [a; b; c; d]
      | _, _, _, _ => None
      end
  | _ => None
  end.
Definition v4_prefix : bytes := repeat x00 10 ++ [xff; xff].
(** net.IPv4(a, b, c, d) (tracker.go:178). *)
Definition ipv4 (q : bytes) : bytes := v4_prefix ++ q.

(** The run of hexadecimal digits at the front. *)
Fixpoint hex_run (s : bytes) : bytes * bytes :=
  match s with
  | c :: s' => match unhex c with Some _ => let '(a, b) := hex_run s' in (c :: a, b) | None => ([], s) end
  | [] => ([], [])
  end.
Definition hex_val (s : bytes) : Z :=
  fold_left (fun a c => match unhex c with Some d => 16 * a + d | None => a end) s 0.
(** The loop of netip.parseIPv6: [acc] is ip[:i], [ell] the position of "::"; the
    result is the bytes read, the position of "::" and the unread text. *)
Fixpoint v6_loop (rounds : nat) (acc : bytes) (ell : option nat) (s : bytes) : option (bytes * option nat * bytes) :=
  match rounds with
  | O => Some (acc, ell, s)
  | S n =>
      let '(ds, rest) := hex_run s in
      if (List.length ds =? 0)%nat || (4 <? List.length ds)%nat then None
      else match rest with
           | [] => Some (acc ++ put_u16 (hex_val ds), ell, [])
           | c :: rest1 =>
               if beqb c "."%byte then
                 if (match ell with None => negb (List.length acc =? 12)%nat | Some _ => false end)
                    || (12 <? List.length acc)%nat then None
                 else match parse_v4 s with
                      | Some q => Some (acc ++ q, ell, [])
                      | None => None
                      end
               else if negb (beqb c ":"%byte) then None
               else match rest1 with
                    | [] => None
                    | c2 :: rest2 =>
                        let acc' := acc ++ put_u16 (hex_val ds) in
                        if beqb c2 ":"%byte then
                          match ell with
                          | Some _ => None
                          | None => match rest2 with
                                    | [] => Some (acc', Some (List.length acc'), [])
                                    | _ => v6_loop n acc' (Some (List.length acc')) rest2
                                    end
                          end
                        else v6_loop n acc' ell rest1
                    end
           end
  end.
(** netip.parseIPv6 without a zone. *)
Definition parse_v6 (s : bytes) : option bytes :=
  let start := match s with
               | c1 :: c2 :: s' => if beqb c1 ":"%byte && beqb c2 ":"%byte then Some s' else None
               | _ => None
               end in
  match start with
  | Some [] => Some (repeat x00 16)
  | _ =>
      match (match start with Some s' => v6_loop 8 [] (Some O) s' | None => v6_loop 8 [] None s end) with
      | Some (ip, ell, []) =>
          if (List.length ip <? 16)%nat then
            match ell with
            | Some e => Some (firstn e ip ++ repeat x00 (16 - List.length ip) ++ skipn e ip)
            | None => None
            end
          else match ell with Some _ => None | None => Some ip end
      | _ => None
      end
  end.
(** net.ParseIP: by the first of '.', ':', '%' in the text; zones are refused.
    [None] is a nil IP. *)
Fixpoint first_mark (s : bytes) : option byte :=
  match s with
  | c :: s' => if existsb (beqb c) (bs ".:%") then Some c else first_mark s'
  | [] => None
  end.
Definition parse_ip (s : bytes) : option bytes :=
  match first_mark s with
  | Some c =>
      if beqb c "."%byte then option_map ipv4 (parse_v4 s)
      else if beqb c ":"%byte then (if existsb (beqb "%"%byte) s then None else parse_v6 s)
      else None
  | None => None
  end.
(** IP.To4 of a 16-byte address. *)
Definition to4 (ip : bytes) : option bytes :=
  if bytes_eqb (firstn 12 ip) v4_prefix then Some (skipn 12 ip) else None.

Definition show_v4 (q : bytes) : bytes := join "."%byte (map (fun b => format_Z (b2z b)) q).
(** A 16-bit group in lower-case hexadecimal without leading zeros. *)
Definition lower_hex (n : Z) : byte := z2b (if n <? 10 then 48 + n else 87 + n).
Definition show_group (g : Z) : bytes :=
  (if 4096 <=? g then [lower_hex (g / 4096)] else []) ++
  (if 256 <=? g then [lower_hex (g / 256 mod 16)] else []) ++
  (if 16 <=? g then [lower_hex (g / 16 mod 16)] else []) ++ [lower_hex (g mod 16)].
Fixpoint groups (ip : bytes) : list Z :=
  match ip with
  | a :: b :: ip' => get_u16 a b :: groups ip'
  | _ => []
  end.
Fixpoint zeros_len (gs : list Z) : nat :=
  match gs with
  | g :: gs' => if g =? 0 then S (zeros_len gs') else O
  | [] => O
  end.
(** The first longest run of at least two zero groups: its start and length. *)
Fixpoint best_run (i : nat) (gs : list Z) (best : nat * nat) : nat * nat :=
  match gs with
  | [] => best
  | _ :: gs' =>
      let l := zeros_len gs in
      best_run (S i) gs' (if (2 <=? l)%nat && (snd best <? l)%nat then (i, l) else best)
  end.
(** netip.Addr.string6 *)
Definition show_v6 (ip : bytes) : bytes :=
  let gs := groups ip in
  let '(st, len) := best_run 0 gs (O, O) in
  let text := fun l => join ":"%byte (map show_group l) in
  match len with
  | O => text gs
  | _ => text (firstn st gs) ++ bs "::" ++ text (skipn (st + len) gs)
  end.
(** IP.String of a 16-byte address. *)
Definition show_ip (ip : bytes) : bytes :=
  match to4 ip with Some q => show_v4 q | None => show_v6 ip end.
