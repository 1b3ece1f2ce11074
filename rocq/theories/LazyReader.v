(** Model of storage/lazy_file_reader.go and of the copying of the piece files into the
    target (storage.go:305-313, 334-352), read by read, with the file descriptors.

    The standard library is modelled as far as it is used: os.Stat, os.Open, File.Read,
    File.Write, File.Close, File.WriteTo, io.MultiReader (Read and WriteTo), io.LimitReader,
    io.Copy and io.CopyN, as of Go 1.22.  Each system call consults a choice made by the
    environment: whether it fails, and how much a read returns.  The piece files do not change
    while they are copied (Torrent.mu is held; other processes are not modelled). *)
From Verif Require Import GoBase Fs.

(** What the environment decides for one system call. *)
Record rchoice := {
  rc_fail : bool;   (* the call reports an error *)
  rc_more : nat;    (* how much a read returns beyond the first byte, or how much of a failing write is done *)
  rc_size : Z }.    (* st.Size() of a directory *)
(** Descriptors opened and closed: of piece files (F) and of the files copied to (T). *)
Inductive fdevent := FOpen (p : path) | FClose (p : path) | TOpen (p : path) | TClose (p : path).
(** io.EOF; any other error; the model has run out of steps (shown to be impossible). *)
Inductive rerr := REof | RErr | RStuck.
Record rstate := { r_tick : nat; r_log : list fdevent }.
(** An open os.File: what is still to be read ([None] for a directory). *)
Record handle := { h_rest : option bytes; h_closed : bool }.
(** lazyFileReader (lazy_file_reader.go:9-14). *)
Record lfr := { l_path : path; l_file : option handle; l_read : Z; l_size : Z }.
(** &lazyFileReader{path: path} (storage.go:308, 337). *)
Definition lazy (p : path) : lfr := {| l_path := p; l_file := None; l_read := 0; l_size := 0 |}.

(** The copy buffer of io.Copy. *)
Definition buffer : nat := Z.to_nat 32768.
Definition note_fd (e : fdevent) (s : rstate) : rstate := {| r_tick := r_tick s; r_log := r_log s ++ [e] |}.

Section Reader.
Variable disk : fs.
Variable env : nat -> rchoice.

(** One system call. *)
Definition ask (s : rstate) : rchoice * rstate := (env (r_tick s), {| r_tick := S (r_tick s); r_log := r_log s |}).

(** os.Stat(lfr.path).Size() and os.Open(lfr.path). *)
Definition stat_size (c : rchoice) (p : path) : option Z :=
  if rc_fail c then None
  else match lookup p disk with
       | Some (NFile b) => Some (zlen b)
       | Some NDir => Some (rc_size c)
       | None => None
       end.
Definition open_read (c : rchoice) (p : path) : option handle :=
  if rc_fail c then None
  else match lookup p disk with
       | Some (NFile b) => Some {| h_rest := Some b; h_closed := false |}
       | Some NDir => Some {| h_rest := None; h_closed := false |}
       | None => None
       end.

(** checkOpen (lazy_file_reader.go:16-29). *)
Definition check_open (l : lfr) (s : rstate) : option rerr * lfr * rstate :=
  match l_file l with
  | Some _ => (None, l, s)
  | None =>
      let (c1, s1) := ask s in
      match stat_size c1 (l_path l) with
      | None => (Some RErr, l, s1)
      | Some size =>
          let (c2, s2) := ask s1 in
          match open_read c2 (l_path l) with
          | None => (Some RErr, {| l_path := l_path l; l_file := None; l_read := l_read l; l_size := size |}, s2)
          | Some h => (None, {| l_path := l_path l; l_file := Some h; l_read := l_read l; l_size := size |}, note_fd (FOpen (l_path l)) s2)
          end
      end
  end.
(** checkClose (lazy_file_reader.go:31-35); Close of a nil or closed file does nothing. *)
Definition check_close (l : lfr) (s : rstate) : lfr * rstate :=
  if l_read l =? l_size l then
    match l_file l with
    | Some h => if h_closed h then (l, s)
                else ({| l_path := l_path l; l_file := Some {| h_rest := h_rest h; h_closed := true |}; l_read := l_read l; l_size := l_size l |},
                      note_fd (FClose (l_path l)) s)
    | None => (l, s)
    end
  else (l, s).
(** File.Read into a buffer of [n] bytes. *)
Definition file_read (h : handle) (n : nat) (s : rstate) : bytes * option rerr * handle * rstate :=
  if h_closed h then ([], Some RErr, h, s)
  else match n with
  | O => ([], None, h, s)
  | _ =>
      let (c, s1) := ask s in
      if rc_fail c then ([], Some RErr, h, s1)
      else match h_rest h with
           | None => ([], Some RErr, h, s1)
           | Some [] => ([], Some REof, h, s1)
           | Some b => let k := S (rc_more c mod Nat.min n (List.length b)) in
                       (firstn k b, None, {| h_rest := Some (skipn k b); h_closed := h_closed h |}, s1)
           end
  end.
(** File.Write: all of the data, or some of it and an error. *)
Definition file_write (d : bytes) (s : rstate) : bytes * bool * rstate :=
  let (c, s1) := ask s in
  if rc_fail c then (firstn (rc_more c) d, false, s1) else (d, true, s1).
Definition has_read (h : handle) (d : bytes) (l : lfr) : lfr :=
  {| l_path := l_path l; l_file := Some h; l_read := l_read l + zlen d; l_size := l_size l |}.
(** Read (lazy_file_reader.go:37-50). *)
Definition lfr_read (l : lfr) (n : nat) (s : rstate) : bytes * option rerr * lfr * rstate :=
  let '(e, l1, s1) := check_open l s in
  match e, l_file l1 with
  | None, Some h =>
      let '(d, e, h', s2) := file_read h n s1 in
      match e with
      | Some REof => let (l2, s3) := check_close (has_read h' d l1) s2 in (d, e, l2, s3)
      | _ => (d, e, has_read h' d l1, s2)
      end
  | _, _ => ([], Some RErr, l1, s1)
  end.
(** File.WriteTo: reads and writes until the end of the file; what was written, and what
    became of the file. *)
Fixpoint drain (fuel : nat) (h : handle) (s : rstate) : bytes * option rerr * handle * rstate :=
  match fuel with
  | O => ([], Some RStuck, h, s)
  | S n =>
      let '(d, e, h1, s1) := file_read h buffer s in
      match e with
      | Some REof => ([], None, h1, s1)
      | Some e => ([], Some e, h1, s1)
      | None =>
          let '(w, ok, s2) := file_write d s1 in
          if ok then let '(w', e', h', s') := drain n h1 s2 in (w ++ w', e', h', s')
          else (w, Some RErr, h1, s2)
      end
  end.
(** WriteTo (lazy_file_reader.go:52-61). *)
Definition lfr_write_to (l : lfr) (s : rstate) : bytes * option rerr * lfr * rstate :=
  let '(e, l1, s1) := check_open l s in
  match e, l_file l1 with
  | None, Some h =>
      let fuel := match h_rest h with Some b => S (List.length b) | None => 1%nat end in
      let '(w, e, h', s2) := drain fuel h s1 in
      let (l2, s3) := check_close (has_read h' w l1) s2 in (w, e, l2, s3)
  | _, _ => let (l2, s2) := check_close l1 s1 in ([], Some RErr, l2, s2)
  end.

(** multiReader.WriteTo, reached from io.Copy(temp, r) (storage.go:311). *)
Fixpoint copy_all (rs : list lfr) (s : rstate) : bytes * option rerr * rstate :=
  match rs with
  | [] => ([], None, s)
  | r :: rs' =>
      let '(w, e, _, s1) := lfr_write_to r s in
      match e with
      | Some e => (w, Some e, s1)
      | None => let '(w', e', s') := copy_all rs' s1 in (w ++ w', e', s')
      end
  end.
(** coalescePiecesForSingleFile from CreateTemp to the end of Copy, and the deferred
    temp.Close (storage.go:304-313). *)
Definition single (temp : path) (pieces : list path) (s : rstate) : bytes * option rerr * rstate :=
  let '(w, e, s1) := copy_all (map lazy pieces) (note_fd (TOpen temp) s) in (w, e, note_fd (TClose temp) s1).

(** multiReader.Read: a reader at its end is dropped. *)
Fixpoint multi_read (rs : list lfr) (n : nat) (s : rstate) : bytes * option rerr * list lfr * rstate :=
  match rs with
  | [] => ([], Some REof, [], s)
  | r :: rs' =>
      let '(d, e, r', s1) := lfr_read r n s in
      match e, d with
      | Some REof, [] => multi_read rs' n s1
      | Some REof, _ => (d, match rs' with [] => Some REof | _ => None end, rs', s1)
      | _, _ => (d, e, r' :: rs', s1)
      end
  end.
(** The loop of io.Copy over an io.LimitedReader with [limit] bytes to go. *)
Fixpoint copy_limited (fuel limit : nat) (rs : list lfr) (s : rstate) : bytes * option rerr * list lfr * rstate :=
  match limit with
  | O => ([], None, rs, s)
  | _ =>
      match fuel with
      | O => ([], Some RStuck, rs, s)
      | S f =>
          let '(d, e, rs1, s1) := multi_read rs (Nat.min buffer limit) s in
          let '(w, ok, s2) := match d with [] => ([], true, s1) | _ => file_write d s1 end in
          if ok then
            match e with
            | Some REof => (w, None, rs1, s2)
            | Some e => (w, Some e, rs1, s2)
            | None => let '(w', e', rs', s') := copy_limited f (limit - List.length d) rs1 s2 in (w ++ w', e', rs', s')
            end
          else (w, Some RErr, rs1, s2)
      end
  end.
(** io.CopyN(f, r, n) (storage.go:349): io.EOF if there were fewer than [n] bytes. *)
Definition copy_n (n : Z) (rs : list lfr) (s : rstate) : bytes * option rerr * list lfr * rstate :=
  let '(w, e, rs', s') := copy_limited (Z.to_nat n) (Z.to_nat n) rs s in
  match e with
  | Some e => (w, Some e, rs', s')
  | None => (w, if zlen w <? n then Some REof else None, rs', s')
  end.
(** The file loop (storage.go:340-353): MkdirAll, Create, CopyN, Close.  The files written,
    with their contents. *)
Fixpoint copy_each (files : list (path * Z)) (rs : list lfr) (s : rstate) : list (path * bytes) * option rerr * rstate :=
  match files with
  | [] => ([], None, s)
  | (p, n) :: files' =>
      let (c1, s1) := ask s in
      if rc_fail c1 then ([], Some RErr, s1)
      else
        let (c2, s2) := ask s1 in
        if rc_fail c2 then ([], Some RErr, s2)
        else
          let '(w, e, rs1, s3) := copy_n n rs (note_fd (TOpen p) s2) in
          match e with
          | Some e => ([(p, w)], Some e, s3)
          | None => let '(ws, e', s') := copy_each files' rs1 (note_fd (TClose p) s3) in ((p, w) :: ws, e', s')
          end
  end.
(** coalescePiecesForMultiFile from the first reader to the end of the loop (storage.go:334-353). *)
Definition multi (files : list (path * Z)) (pieces : list path) (s : rstate) : list (path * bytes) * option rerr * rstate :=
  copy_each files (map lazy pieces) s.
End Reader.
