(** Model of storage/storage.go, storage/torrent.go, storage/lazy_file_reader.go and
    future/future.go (as used by storage).

    The functions here are the code between lock operations, run without interference;
    StorageSys.v adds the locks and the interleaving of concurrent calls.  crypto/sha1
    is a parameter.  Block counts and Downloaded are unbounded; the offset arithmetic of
    GetBlock and GetPieceLength wraps like int.  Logging is left out. *)
From Verif Require Import GoBase Strconv Bitfield BencDecode Metainfo Fs.

(** BLOCK_LENGTH (storage.go:17). *)
Definition BL : Z := 16384.

(** The errors returned; all errors of os calls are [EIO]. *)
Inductive serr :=
| EIO
| EIncompletePiece                          (* ErrIncompletePiece *)
| EBlockExists                              (* ErrBlockExists *)
| EChecksum (index : Z) (got want : bytes)  (* *ChecksumError *)
| EMisaligned | EBlockLength                (* checkBlockSize *)
| EShortRead                                (* "storage: incomplete read" *)
| EReset.                                   (* "storage: piece reset" *)

(** A Future[error] (future.go:3-16): [None] until delivered, then the value (itself
    [None] for nil).  Futures are shared by reference: [nat] is an index into the list of
    all futures ever made. *)
Notation fut := (option (option serr)).

(** type Piece (torrent.go:65-76) and type Torrent (13-22) with Storage.downloaded
    (storage.go:23).  A block is its data; index and begin are its place. *)
Record piece := {
  pc_sha1 : bytes; pc_index : Z; pc_length : Z; pc_num : Z;
  pc_coalesced : bool; pc_complete : Z; pc_blocks : option (list (option bytes)); pc_err : nat }.
Record mem := {
  t_bitfield : bytes; t_coalesced : bool; t_complete : Z; t_pieces : list piece; t_err : nat;
  t_downloaded : Z; t_futures : list fut }.

(** newPiece (torrent.go:78-91); GetPieceLength is metainfo.go:66-71. *)
Definition num_blocks (len : Z) : Z :=
  if negb (Z.rem len BL =? 0) then Z.quot len BL + 1 else Z.quot len BL.
Definition new_piece (i : info) (index : Z) (hash : bytes) (err : nat) : piece :=
  let len := get_piece_length i index in
  {| pc_sha1 := hash; pc_index := index; pc_length := len; pc_num := num_blocks len;
     pc_coalesced := false; pc_complete := 0; pc_blocks := None; pc_err := err |}.
Fixpoint new_pieces (i : info) (k : nat) (hashes : list bytes) : list piece :=
  match hashes with
  | [] => []
  | h :: hs => new_piece i (Z.of_nat k) h (S k) :: new_pieces i (S k) hs
  end.
(** newTorrent (torrent.go:24-35) / New (storage.go:32-38). *)
Definition new_mem (i : info) : mem :=
  {| t_bitfield := match bf_new (zlen (i_pieces i)) with Some b => b | None => [] end;
     t_coalesced := false; t_complete := 0; t_pieces := new_pieces i 0 (i_pieces i); t_err := 0;
     t_downloaded := 0; t_futures := repeat None (S (List.length (i_pieces i))) |}.

(** fmt.Sprintf("%x", hash) (torrent.go:38) and FileName (93-95). *)
Definition hex_digit (n : Z) : byte := z2b (if n <? 10 then 48 + n else 87 + n).
Definition hex (b : bytes) : bytes := flat_map (fun c => [hex_digit (b2z c / 16); hex_digit (b2z c mod 16)]) b.
Definition piece_name (index : Z) : bytes := format_Z index ++ bs ".piece".
(** fmt.Sscanf(name, "%d.piece", &i) (storage.go:61): the verb skips white space (fmt's own
    list of it, here in UTF-8; a newline is an error), then takes an optional sign and digits.
    Text after the match is ignored. *)
Definition blanks : list bytes :=
  map (map z2b) [[9]; [11]; [12]; [13]; [32]; [194; 133]; [194; 160]; [225; 154; 128];
    [226; 128; 128]; [226; 128; 129]; [226; 128; 130]; [226; 128; 131]; [226; 128; 132]; [226; 128; 133]; [226; 128; 134]; [226; 128; 135];
    [226; 128; 136]; [226; 128; 137]; [226; 128; 138]; [226; 128; 168]; [226; 128; 169]; [226; 128; 175]; [226; 129; 159]; [227; 128; 128]].
Fixpoint skip_blanks (fuel : nat) (s : bytes) : bytes :=
  match fuel with
  | O => s
  | S fuel' => match List.find (fun p => bytes_eqb (firstn (List.length p) s) p) blanks with
               | Some p => skip_blanks fuel' (skipn (List.length p) s)
               | None => s
               end
  end.
Fixpoint span_digits (s : bytes) : bytes * bytes :=
  match s with
  | c :: s' => if is_digit c then let (a, b) := span_digits s' in (c :: a, b) else ([], s)
  | [] => ([], [])
  end.
Definition scan_number (s : bytes) : option Z :=
  let (sign, s1) := match s with
                    | c :: s' => if beqb c "-"%byte || beqb c "+"%byte then ([c], s') else ([], s)
                    | [] => ([], [])
                    end in
  let (digits, rest) := span_digits s1 in
  match digits with
  | [] => None
  | _ => if bytes_eqb (firstn 6 rest) (bs ".piece") then parse_int (sign ++ digits) else None
  end.
Definition scan_piece_name (s : bytes) : option Z := scan_number (skip_blanks (List.length s) s).

(** checkBlockSize (storage.go:227-241). *)
Definition check_block_size (i : info) (index begin length : Z) : option serr :=
  if negb (Z.rem begin BL =? 0) then Some EMisaligned
  else
    let len := get_piece_length i index in
    let expected := if begin =? BL * Z.quot len BL then len - begin else BL in
    if negb (expected =? length) then Some EBlockLength else None.

(** Where a Storage keeps its files (storage.go:20-21), and its torrent. *)
Record config := { c_target : path; c_work : path; c_info : info }.

(** The file system, all states it went through since it was last emptied (newest first),
    the number of os calls made, and the memory of the process. *)
Record world := { w_fs : fs; w_past : list fs; w_tick : nat; w_mem : mem }.
Definition io (A : Type) := world -> world * res serr A.
Definition ret {A} (a : A) : io A := fun w => (w, Ok a).
Definition fails {A} (e : serr) : io A := fun w => (w, Err e).
Definition panics {A} : io A := fun w => (w, Panic).
Definition bind {A B} (a : io A) (k : A -> io B) : io B := fun w =>
  match a w with
  | (w', Ok x) => k x w'
  | (w', Err e) => (w', Err e)
  | (w', Panic) => (w', Panic)
  end.
Notation "'do' x <- a ; b" := (bind a (fun x => b)) (at level 200, x name, a at level 100, b at level 200).
Notation "a ;; b" := (bind a (fun _ => b)) (at level 199, right associativity).
(** defer c(): run after [a], its error ignored. *)
Definition finally {A} (a : io A) (c : io unit) : io A := fun w =>
  let (w1, r) := a w in let (w2, _) := c w1 in (w2, r).
Definition get_mem : io mem := fun w => (w, Ok (w_mem w)).
Definition set_mem (m : mem) : io unit := fun w =>
  ({| w_fs := w_fs w; w_past := w_past w; w_tick := w_tick w; w_mem := m |}, Ok tt).

Section Storage.
Variable sha1 : bytes -> bytes.
Variable cfg : config.
(** The environment's decisions, one per os call. *)
Variable env : nat -> choice.

(** An os call that changes the file system. *)
Definition act (ef : choice -> fs -> effect) : io unit := fun w =>
  let c := env (w_tick w) in
  let e := ef c (w_fs w) in
  match (if ch_fail c then None else ef_end e) with
  | None => ({| w_fs := ef_mid e; w_past := ef_mid e :: w_past w; w_tick := S (w_tick w); w_mem := w_mem w |}, Err EIO)
  | Some f => ({| w_fs := f; w_past := f :: ef_mid e :: w_past w; w_tick := S (w_tick w); w_mem := w_mem w |}, Ok tt)
  end.
(** An os call that only looks. *)
Definition look {A} (q : choice -> fs -> option A) : io A := fun w =>
  let c := env (w_tick w) in
  ({| w_fs := w_fs w; w_past := w_past w; w_tick := S (w_tick w); w_mem := w_mem w |},
   match (if ch_fail c then None else q c (w_fs w)) with Some x => Ok x | None => Err EIO end).
Definition temp_file (n : node) (dir : path) (pattern : bytes) : io path := fun w =>
  let p := dir ++ [ch_name (env (w_tick w))] in
  (act (fun c => make_temp n c dir pattern) ;; ret p) w.

Definition the_info : info := c_info cfg.
(** filepath.Join(s.WorkDir, "temp"), Join(s.WorkDir, WorkDir()), Join(s.TargetDir, FileName()). *)
Definition temp_dir : path := join (c_work cfg) [bs "temp"].
Definition piece_dir : path := join (c_work cfg) [hex (i_sha1 the_info)].
Definition piece_path (index : Z) : path := join (c_work cfg) [hex (i_sha1 the_info); piece_name index].
Definition target_path : path := join (c_target cfg) [i_name the_info].
(** filepath.Join(base, file.Path...) *)
Definition file_path (base : path) (f : file) : path := join base (f_path f).

(** Deliver (future.go:12-15): the second close of the channel panics. *)
Definition deliver (id : nat) (v : option serr) : io unit :=
  do m <- get_mem;
  match nth_error (t_futures m) id with
  | Some None => set_mem {| t_bitfield := t_bitfield m; t_coalesced := t_coalesced m; t_complete := t_complete m; t_pieces := t_pieces m;
                            t_err := t_err m; t_downloaded := t_downloaded m; t_futures := list_set id (Some v) (t_futures m) |}
  | _ => panics
  end.
(** s.Torrent.pieces[index]: panics out of range. *)
Definition piece_at (index : Z) : io piece :=
  do m <- get_mem;
  match (if index <? 0 then None else nth_error (t_pieces m) (Z.to_nat index)) with
  | Some p => ret p
  | None => panics
  end.
Definition set_piece (index : Z) (p : piece) : io unit :=
  do m <- get_mem;
  set_mem {| t_bitfield := t_bitfield m; t_coalesced := t_coalesced m; t_complete := t_complete m;
             t_pieces := list_set (Z.to_nat index) p (t_pieces m); t_err := t_err m; t_downloaded := t_downloaded m; t_futures := t_futures m |}.
Definition add_downloaded (n : Z) : io unit :=
  do m <- get_mem;
  set_mem {| t_bitfield := t_bitfield m; t_coalesced := t_coalesced m; t_complete := t_complete m; t_pieces := t_pieces m;
             t_err := t_err m; t_downloaded := t_downloaded m + n; t_futures := t_futures m |}.

(** completePiece (torrent.go:52-58). *)
Definition complete_piece (index : Z) : io unit :=
  do p <- piece_at index;
  deliver (pc_err p) None ;;
  set_piece index {| pc_sha1 := pc_sha1 p; pc_index := pc_index p; pc_length := pc_length p; pc_num := pc_num p;
                     pc_coalesced := true; pc_complete := pc_complete p; pc_blocks := None; pc_err := pc_err p |} ;;
  do m <- get_mem;
  match bf_add (t_bitfield m) (pc_index p) with
  | Some b => set_mem {| t_bitfield := b; t_coalesced := t_coalesced m; t_complete := t_complete m + 1; t_pieces := t_pieces m;
                         t_err := t_err m; t_downloaded := t_downloaded m; t_futures := t_futures m |}
  | None => panics
  end.
(** complete (torrent.go:60-63). *)
Definition complete_torrent : io unit :=
  do m <- get_mem;
  set_mem {| t_bitfield := t_bitfield m; t_coalesced := true; t_complete := t_complete m; t_pieces := t_pieces m;
             t_err := t_err m; t_downloaded := t_downloaded m; t_futures := t_futures m |} ;;
  deliver (t_err m) None.

(** putBlock (torrent.go:111-129). *)
Definition put_in_piece (index begin : Z) (data : bytes) : io unit :=
  do p <- piece_at index;
  if pc_coalesced p then fails EBlockExists
  else
    match (match pc_blocks p with
           | Some l => Some l
           | None => if pc_num p <? 0 then None else Some (repeat None (Z.to_nat (pc_num p)))
           end) with
    | None => panics
    | Some l =>
        let k := Z.quot begin BL in
        match (if k <? 0 then None else nth_error l (Z.to_nat k)) with
        | None => panics
        | Some (Some _) => fails EBlockExists
        | Some None =>
            set_piece index {| pc_sha1 := pc_sha1 p; pc_index := pc_index p; pc_length := pc_length p; pc_num := pc_num p;
                               pc_coalesced := false; pc_complete := pc_complete p + 1;
                               pc_blocks := Some (list_set (Z.to_nat k) (Some data) l); pc_err := pc_err p |}
        end
    end.

(** The blocks of a piece in order (storage.go:259-262): a nil block panics. *)
Fixpoint all_blocks (l : list (option bytes)) : option bytes :=
  match l with
  | [] => Some []
  | Some b :: l' => option_map (app b) (all_blocks l')
  | None :: _ => None
  end.
(** coalesceBlocks (storage.go:243-281). *)
Definition coalesce_blocks (index : Z) : io unit :=
  do p <- piece_at index;
  let l := match pc_blocks p with Some l => l | None => [] end in
  if negb (pc_complete p =? zlen l) then ret tt
  else
    act (fun c => mkdir_all c temp_dir) ;;
    do temp <- temp_file (NFile []) temp_dir (hex (i_sha1 the_info) ++ bs "-" ++ piece_name (pc_index p));
    finally
      (match all_blocks l with
       | None => panics
       | Some data =>
           act (fun c => write c temp data) ;;
           if negb (bytes_eqb (sha1 data) (pc_sha1 p)) then fails (EChecksum (pc_index p) (sha1 data) (pc_sha1 p))
           else
             act (fun c => mkdir_all c piece_dir) ;;
             act (fun _ => rename temp (piece_path (pc_index p))) ;;
             complete_piece index
       end)
      (act (fun _ => remove temp)).

(** What the MultiReader over the piece files delivers (storage.go:305-310, 334-339;
    lazy_file_reader.go): the contents in order, up to the first piece file that cannot be
    opened. *)
Fixpoint read_pieces (f : fs) (ps : list piece) : bytes * bool :=
  match ps with
  | [] => ([], true)
  | p :: ps' => match lookup (piece_path (pc_index p)) f with
                | Some (NFile b) => let (r, ok) := read_pieces f ps' in (b ++ r, ok)
                | _ => ([], false)
                end
  end.
(** coalescePiecesForSingleFile (storage.go:294-322). *)
Definition coalesce_single : io unit :=
  act (fun c => mkdir_all c temp_dir) ;;
  do temp <- temp_file (NFile []) temp_dir (i_name the_info);
  finally
    (do m <- get_mem;
     do r <- look (fun _ f => Some (read_pieces f (t_pieces m)));
     act (fun c => write c temp (fst r)) ;;
     (if snd r then ret tt else fails EIO) ;;
     act (fun _ => rename temp target_path) ;;
     act (fun c => remove_all c piece_dir) ;;
     complete_torrent)
    (act (fun _ => remove temp)).
(** The file loop of coalescePiecesForMultiFile (storage.go:340-353); [data] is what is
    left of the stream.  CopyN reports an error if the stream ends early, be it at its end
    or at a piece file that cannot be opened, and copies nothing for a negative count. *)
Fixpoint copy_files (temp : path) (files : list file) (data : bytes) : io unit :=
  match files with
  | [] => ret tt
  | f :: files' =>
      (match f_path f with [] => fails EIO | _ => ret tt end) ;;
      act (fun c => mkdir_all c (join temp (removelast (f_path f)))) ;;
      act (fun _ => create (file_path temp f)) ;;
      let n := Z.to_nat (f_length f) in
      act (fun c => write c (file_path temp f) (firstn n data)) ;;
      (if (List.length data <? n)%nat then fails EIO else ret tt) ;;
      copy_files temp files' (skipn n data)
  end.
(** coalescePiecesForMultiFile (storage.go:324-362). *)
Definition coalesce_multi : io unit :=
  act (fun c => mkdir_all c temp_dir) ;;
  do temp <- temp_file NDir temp_dir (i_name the_info);
  finally
    (do m <- get_mem;
     do r <- look (fun _ f => Some (read_pieces f (t_pieces m)));
     copy_files temp (i_files the_info) (fst r) ;;
     act (fun _ => rename temp target_path) ;;
     act (fun c => remove_all c piece_dir) ;;
     complete_torrent)
    (act (fun c => remove_all c temp)).
(** coalescePieces (storage.go:283-292). *)
Definition coalesce_pieces : io unit :=
  do m <- get_mem;
  if negb (t_complete m =? zlen (t_pieces m)) then ret tt
  else match i_files the_info with [] => coalesce_single | _ => coalesce_multi end.

(** The second half of PutBlock (storage.go:131-139), under piece.mu and Torrent.mu. *)
Definition put_finish (index : Z) : io unit := fun w =>
  match coalesce_blocks index w with
  | (w', Ok _) => coalesce_pieces w'
  | (w', Err e) => (do p <- piece_at index; add_downloaded (pc_length p) ;; deliver (pc_err p) (Some e) ;; fails e) w'
  | (w', Panic) => (w', Panic)
  end.
(** PutBlock (storage.go:112-140) without interference. *)
Definition put_block (index begin : Z) (data : bytes) : io unit :=
  match check_block_size the_info index begin (zlen data) with
  | Some e => fails e
  | None =>
      do m <- get_mem;
      if t_coalesced m then fails EBlockExists
      else put_in_piece index begin data ;; put_finish index
  end.

(** ResetPiece (storage.go:88-94) and reset (torrent.go:104-109). *)
Definition reset_piece (index : Z) : io unit :=
  do p <- piece_at index;
  deliver (pc_err p) (Some EReset) ;;
  do m <- get_mem;
  set_mem {| t_bitfield := t_bitfield m; t_coalesced := t_coalesced m; t_complete := t_complete m; t_pieces := t_pieces m;
             t_err := t_err m; t_downloaded := t_downloaded m; t_futures := t_futures m ++ [None] |} ;;
  set_piece index {| pc_sha1 := pc_sha1 p; pc_index := pc_index p; pc_length := pc_length p; pc_num := pc_num p;
                     pc_coalesced := pc_coalesced p; pc_complete := 0; pc_blocks := None; pc_err := List.length (t_futures m) |}.

(** f.ReadAt(make([]byte, length), off): the bytes read, and whether that was fewer than
    asked for (io.EOF).  A read of nothing succeeds anywhere. *)
Definition read_at (b : bytes) (off length : Z) : bytes * bool :=
  let d := firstn (Z.to_nat length) (skipn (Z.to_nat off) b) in (d, zlen d <? length).
Definition open_file (p : path) : io bytes :=
  look (fun _ f => match lookup p f with Some (NFile b) => Some b | _ => None end).
(** getBlockFromPiece (storage.go:213-225).  ReadAt with a negative offset is an error. *)
Definition get_from_piece (p : piece) (begin length : Z) : io bytes :=
  do b <- open_file (piece_path (pc_index p));
  if negb (make_ok length) then panics
  else if begin <? 0 then fails EIO
  else let (d, short) := read_at b begin length in if short then fails EIO else ret d.
(** getBlockFromSingleFile (storage.go:159-176). *)
Definition get_from_single (index begin length : Z) : io bytes :=
  do b <- open_file target_path;
  if negb (make_ok length) then panics
  else
    let off := wrap_s 64 (index * i_piece_length the_info + begin) in
    if off <? 0 then fails EIO
    else let (d, short) := read_at b off length in if short then fails EIO else ret d.
(** The file loop of getBlockFromMultiFile (storage.go:184-206): [got] is data[:curr]. *)
Fixpoint get_multi_loop (files : list file) (total start fin length : Z) (got : bytes) : io bytes :=
  match files with
  | [] => ret got
  | f :: files' =>
      let total' := wrap_s 64 (total + f_length f) in
      if fin <=? total then ret got
      else if start <=? total' then
        let off := if total <? start then wrap_s 64 (start - total) else 0 in
        do b <- open_file (file_path target_path f);
        if off <? 0 then fails EIO
        else
          let d := fst (read_at b off (length - zlen got)) in
          get_multi_loop files' total' start fin length (got ++ d)
      else get_multi_loop files' total' start fin length got
  end.
(** getBlockFromMultiFile (storage.go:178-211). *)
Definition get_from_multi (index begin length : Z) : io bytes :=
  if negb (make_ok length) then panics
  else
    let start := wrap_s 64 (index * i_piece_length the_info + begin) in
    do d <- get_multi_loop (i_files the_info) 0 start (wrap_s 64 (start + length)) length [];
    if zlen d <? length then fails EShortRead else ret d.
(** GetBlock (storage.go:96-110). *)
Definition get_block (index begin length : Z) : io bytes :=
  do m <- get_mem;
  if t_coalesced m then
    match i_files the_info with
    | [] => get_from_single index begin length
    | _ => get_from_multi index begin length
    end
  else
    do p <- piece_at index;
    if negb (pc_coalesced p) then fails EIncompletePiece else get_from_piece p begin length.

(** The loop over the work directory in Load (storage.go:59-71). *)
Fixpoint load_entries (names : list bytes) : io unit :=
  match names with
  | [] => ret tt
  | n :: names' =>
      match scan_piece_name n with
      | None => load_entries names'
      | Some i =>
          do size <- look (fun c f => match lookup (piece_dir ++ [n]) f with
                                      | Some (NFile b) => Some (zlen b)
                                      | Some NDir => Some (ch_size c)
                                      | None => None
                                      end);
          add_downloaded size ;;
          complete_piece i ;;
          load_entries names'
      end
  end.
(** storage.go:47-49. *)
Fixpoint complete_all (n : nat) (k : Z) : io unit :=
  match n with
  | O => ret tt
  | S n' => complete_piece k ;; complete_all n' (k + 1)
  end.
(** Load (storage.go:40-78). *)
Definition load : io unit :=
  do st <- look (fun c f => Some (match lookup target_path f with
                                  | Some (NFile b) => Some (zlen b)
                                  | Some NDir => Some (ch_size c)
                                  | None => None
                                  end));
  match st with
  | Some size => complete_all (List.length (i_pieces the_info)) 0 ;; complete_torrent ;; add_downloaded size
  | None =>
      do names <- look (fun _ f => match lookup piece_dir f with
                                   | Some NDir => Some (Some (names_in piece_dir f))
                                   | Some (NFile _) => None
                                   | None => Some None
                                   end);
      match names with
      | None => ret tt
      | Some l => load_entries l ;; coalesce_pieces
      end
  end.
End Storage.
