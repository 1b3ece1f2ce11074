(** The part of the operating system storage/ relies on: paths, a file system without
    symbolic links, and the os calls with everything that can go wrong in them.

    Nothing here models drip code; the lines cited are the uses in /repo.  A path is the
    list of names from the root.  Every call consults a [choice] made by the environment:
    whether it fails, and what a failure or a crash in the middle leaves behind.  File
    contents survive a crash of the process (a crash of the whole machine, where unsynced
    data can be lost, is not modelled).  Permissions, link counts and open descriptors
    are not modelled: an open file is identified with its path. *)
From Verif Require Import GoBase Url.

Definition path := list bytes.
Inductive node := NDir | NFile (b : bytes).
(** An association list from paths to nodes; the root is always a directory. *)
Definition fs := list (path * node).

Fixpoint path_eqb (p q : path) : bool :=
  match p, q with
  | [], [] => true
  | a :: p', b :: q' => bytes_eqb a b && path_eqb p' q'
  | _, _ => false
  end.
(** [under p q]: q is p or lies below p. *)
Fixpoint under_path (p q : path) : bool :=
  match p, q with
  | [], _ => true
  | a :: p', b :: q' => bytes_eqb a b && under_path p' q'
  | _, [] => false
  end.
Fixpoint find (p : path) (f : fs) : option node :=
  match f with
  | [] => None
  | (q, n) :: f' => if path_eqb p q then Some n else find p f'
  end.
Definition lookup (p : path) (f : fs) : option node :=
  match p with [] => Some NDir | _ => find p f end.
Definition is_dir (p : path) (f : fs) : bool := match lookup p f with Some NDir => true | _ => false end.
Definition del (p : path) (f : fs) : fs := filter (fun e => negb (path_eqb p (fst e))) f.
Definition put (p : path) (n : node) (f : fs) : fs := (p, n) :: del p f.
Definition parent (p : path) : path := removelast p.

(** Lexical resolution of path elements below [base]: filepath.Join followed by the
    kernel's lookup (storage.go:41, 54, 65, 160, ...).  Join cleans the path first, so ".."
    removes the last name even if it does not exist. *)
Definition walk (p : path) (name : bytes) : path :=
  if bytes_eqb name [] || bytes_eqb name (bs ".") then p
  else if bytes_eqb name (bs "..") then parent p
  else p ++ [name].
Definition join (base : path) (elems : list bytes) : path :=
  fold_left walk (flat_map (split_on "/"%byte) elems) base.

(** What the environment decides for one call. *)
Record choice := {
  ch_fail : bool;            (* the call reports an error of its own *)
  ch_part : nat;             (* how far it got before an error or a crash *)
  ch_keep : path -> bool;    (* what os.RemoveAll had not removed yet *)
  ch_name : bytes;           (* the random name of os.CreateTemp *)
  ch_size : Z }.             (* st.Size() of a directory *)

(** The effect of a call: an intermediate state (where a crash or an error of its own
    can leave the file system), and the final state unless the call itself fails. *)
Record effect := { ef_mid : fs; ef_end : option fs }.

(** os.MkdirAll (storage.go:249, 273, 296, 326, 342): creates the missing directories from the top. *)
Fixpoint prefixes (p : path) : list path :=
  match p with [] => [] | a :: p' => [a] :: map (cons a) (prefixes p') end.
Fixpoint mkdirs (l : list path) (f : fs) : option fs :=
  match l with
  | [] => Some f
  | q :: l' => match lookup q f with
               | Some NDir => mkdirs l' f
               | Some (NFile _) => None
               | None => mkdirs l' (put q NDir f)
               end
  end.
Definition mkdir_all (c : choice) (p : path) (f : fs) : effect :=
  {| ef_mid := match mkdirs (firstn (ch_part c) (prefixes p)) f with Some f' => f' | None => f end;
     ef_end := mkdirs (prefixes p) f |}.
(** os.CreateTemp and os.MkdirTemp (storage.go:252, 299, 329): the pattern must not contain a path
    separator; the environment picks a fresh name (an unsuitable pick is a failure). *)
Definition plain_name (n : bytes) : bool :=
  negb (bytes_eqb n [] || bytes_eqb n (bs ".") || bytes_eqb n (bs "..")) && negb (existsb (beqb "/"%byte) n).
Definition make_temp (n : node) (c : choice) (dir : path) (pattern : bytes) (f : fs) : effect :=
  {| ef_mid := f;
     ef_end := if existsb (beqb "/"%byte) pattern then None
               else if negb (plain_name (ch_name c)) || negb (is_dir dir f) then None
               else match lookup (dir ++ [ch_name c]) f with
                    | Some _ => None
                    | None => Some (put (dir ++ [ch_name c]) n f)
                    end |}.
(** os.Create (storage.go:345): truncates an existing file. *)
Definition create (p : path) (f : fs) : effect :=
  {| ef_mid := f;
     ef_end := match lookup p f with
               | Some NDir => None
               | Some (NFile _) => Some (put p (NFile []) f)
               | None => if is_dir (parent p) f then Some (put p (NFile []) f) else None
               end |}.
(** Writing [data] to the new, empty file [p] (io.Copy, io.CopyN: storage.go:265, 311, 349). *)
Definition write (c : choice) (p : path) (data : bytes) (f : fs) : effect :=
  {| ef_mid := put p (NFile (firstn (ch_part c) data)) f; ef_end := Some (put p (NFile data) f) |}.
(** Moving the subtree at [src] to [dst]. *)
Definition move (src dst : path) (f : fs) : fs :=
  map (fun e => if under_path src (fst e) then (dst ++ skipn (List.length src) (fst e), snd e) else e)
    (filter (fun e => negb (under_path dst (fst e))) f).
(** os.Rename (storage.go:276, 314, 354): atomic; refuses to replace a directory, or a file by a
    directory. *)
Definition rename (src dst : path) (f : fs) : effect :=
  {| ef_mid := f;
     ef_end := match lookup src f, lookup dst f with
               | None, _ => None
               | _, Some NDir => None
               | Some NDir, Some (NFile _) => None
               | Some _, _ => if is_dir (parent dst) f && negb (under_path src dst) then Some (move src dst f) else None
               end |}.
(** os.Remove of a file (storage.go:256, 303) and os.RemoveAll (317, 333, 357). *)
Definition remove (p : path) (f : fs) : effect := {| ef_mid := f; ef_end := Some (del p f) |}.
Definition remove_all (c : choice) (p : path) (f : fs) : effect :=
  {| ef_mid := filter (fun e => negb (under_path p (fst e)) || ch_keep c (fst e)) f;
     ef_end := Some (filter (fun e => negb (under_path p (fst e))) f) |}.

(** The names in a directory, sorted (os.ReadDir, storage.go:54). *)
Definition child (p q : path) : option bytes :=
  match skipn (List.length p) q with
  | [n] => if under_path p q then Some n else None
  | _ => None
  end.
Definition names_in (p : path) (f : fs) : list bytes :=
  BencFields.sort_by (fun n => n) (flat_map (fun e => match child p (fst e) with Some n => [n] | None => [] end) f).
