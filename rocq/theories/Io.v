(** * The io library: model of /repo/std/yasl-std-io.c:16-246 (open, read, write, flush, seek, close of files), on a model of the C library's
    streams (ISO C 7.21, POSIX) for one regular file. Not modelled: stdin, stdout and stderr, several streams on one file at a time, errors of the
    device (a full disk, missing permissions). Messages are left out. *)
From Verif Require Import Base Value.
Local Open Scope list_scope.

(** ** The C library. What was done last on the stream: reading (and whether the end was met), writing, or neither since it was opened,
    positioned or flushed. A stream keeps the bytes of its file; closing it leaves them on the disk. *)
Inductive last : Set := Nothing | Read (at_end : bool) | Written.
Record stream : Type := Stream { f_data : list Z; f_pos : Z; f_read : bool; f_write : bool; f_append : bool; f_last : last }.
Definition f_len (f : stream) : Z := Z.of_nat (length (f_data f)).
Definition set_pos (f : stream) (p : Z) (l : last) : stream := Stream (f_data f) p (f_read f) (f_write f) (f_append f) l.
(** [fopen]: [disk] is the content of the file, if it exists. *)
Definition c_fopen (disk : option (list Z)) (mode : Z) (plus : bool) : option stream :=
  if mode =? 114 then match disk with Some d => Some (Stream d 0 true plus false Nothing) | None => None end
  else if mode =? 119 then Some (Stream [] 0 plus true false Nothing)
  else Some (Stream (match disk with Some d => d | None => [] end) 0 plus true true Nothing).
(** [fgetc]: reading directly after writing is undefined; a stream that is not open for reading gives EOF. *)
Definition c_fgetc (f : stream) : outcome (option Z * stream) :=
  match f_last f with
  | Written => UB
  | _ => if negb (f_read f) then Ok (None, f)
         else if f_pos f <? f_len f then Ok (Some (nth (Z.to_nat (f_pos f)) (f_data f) 0), set_pos f (f_pos f + 1) (Read false))
         else Ok (None, set_pos f (f_pos f) (Read true))
  end.
(** [fread] of one object of [n] bytes: the bytes it could read. *)
Fixpoint c_fread (n : nat) (f : stream) : outcome (list Z * stream) :=
  match n with
  | O => Ok ([], f)
  | S n' => do r <- c_fgetc f; match fst r with None => Ok ([], snd r) | Some c => do q <- c_fread n' (snd r); Ok (c :: fst q, snd q) end
  end.
Inductive origin : Set := SeekSet | SeekCur | SeekEnd.
Definition c_fseek (f : stream) (offset : Z) (whence : origin) : bool * stream :=
  let p := offset + match whence with SeekSet => 0 | SeekCur => f_pos f | SeekEnd => f_len f end in
  if (0 <=? p) && (p <=? 9223372036854775807) then (true, set_pos f p Nothing) else (false, f).
(** [fwrite]: writing directly after reading is undefined unless the end was met; in append mode the bytes go to the end; a gap is filled with
    zero bytes. *)
Definition c_fwrite (f : stream) (x : list Z) : outcome (Z * stream) :=
  match f_last f with
  | Read false => UB
  | _ => if negb (f_write f) then Ok (0, f)
         else let p := Z.to_nat (if f_append f then f_len f else f_pos f) in
              let d := f_data f ++ repeat 0 (p - length (f_data f)) in
              Ok (Z.of_nat (length x), Stream (firstn p d ++ x ++ skipn (p + length x) d) (Z.of_nat (p + length x)) (f_read f) (f_write f) (f_append f) Written)
  end.
(** [fflush]; after reading it changes nothing (POSIX). *)
Definition c_fflush (f : stream) : stream := match f_last f with Written => set_pos f (f_pos f) Nothing | _ => f end.

(** ** The library. A file value holds a stream that may have been closed ([None]); the disk has what was last closed. *)
Record files : Type := Files { disk : option (list Z); handle : option stream }.
Definition with_stream (w : files) (f : stream) : files := Files (disk w) (Some f).
(** An argument: the file value or another value. *)
Inductive arg : Type := AFile | AVal (v : value).
(** [YASL_peekcstr], yasl.c:580-590, seen through [strlen]: the bytes up to the first zero byte. *)
Fixpoint cstr (x : list Z) : list Z := match x with [] => [] | c :: r => if c =? 0 then [] else c :: cstr r end.
(** [YASLX_checkfile], yasl-std-io.c:16-22, and the use of the stream: using one that was closed is undefined. *)
Definition checkfile (w : files) (a : arg) : outcome stream :=
  match a with AFile => match handle w with Some f => Ok f | None => UB end | AVal _ => Err EType end.
(** [YASL_io_open], :36-112. *)
Definition io_open (w : files) (name mode : arg) : outcome (files * option unit) :=
  do m <- match mode with
          | AVal VUndef => Ok [114]
          | AVal (VStr x) => let t := cstr x in
              if (2 <? Z.of_nat (length t)) || (Z.of_nat (length t) <? 1) || ((Z.of_nat (length t) =? 2) && negb (nth 1 t 0 =? 43)) then Err EValue else Ok t
          | _ => Err EType
          end;
  match name with
  | AVal (VStr _) =>
    let c := nth 0 m 0 in
    if (c =? 114) || (c =? 119) || (c =? 97) then
      match c_fopen (disk w) c (Z.of_nat (length m) =? 2) with
      | Some f => Ok (with_stream (Files (Some (f_data f)) (handle w)) f, Some tt)
      | None => Ok (w, None)
      end
    else Err EValue
  | _ => Err EType
  end.
(** The loop of :155-163; [size] is the size of the buffer: writing outside it is undefined. *)
Fixpoint read_line (fuel : nat) (size : Z) (buf : list Z) (f : stream) : outcome (list Z * stream) :=
  match fuel with
  | O => NoFuel
  | S fuel' =>
    do r <- c_fgetc f;
    match fst r with
    | None => Ok (rev buf, snd r)
    | Some c => if c =? 10 then Ok (rev buf, snd r)
                else let size' := if Z.of_nat (length buf) =? size then size * 2 else size in
                     if Z.of_nat (length buf) <? size' then read_line fuel' size' (c :: buf) (snd r) else UB
    end
  end.
(** [YASL_io_read], :114-171. A mode 'a' reads into a buffer of the length of the file, all of which becomes the string: the bytes that were not
    read are uninitialised. *)
Definition io_read (fuel : nat) (w : files) (file mode : arg) : outcome (files * value) :=
  do m <- match mode with
          | AVal VUndef => Ok 108
          | AVal (VStr x) => let t := cstr x in if Z.of_nat (length t) =? 1 then Ok (nth 0 t 0) else Err EValue
          | _ => Err EType
          end;
  do f <- checkfile w file;
  if m =? 97 then
    let f1 := snd (c_fseek f 0 SeekEnd) in
    let size := f_pos f1 in
    let f2 := snd (c_fseek f1 0 SeekSet) in
    do r <- c_fread (Z.to_nat size) f2;
    if Z.of_nat (length (fst r)) =? size then Ok (with_stream w (snd r), VStr (fst r)) else UB
  else if m =? 108 then do r <- read_line fuel 16 [] f; Ok (with_stream w (snd r), VStr (fst r))
  else Err EValue.
(** [YASL_io_write], :173-190. *)
Definition io_write (w : files) (file x : arg) : outcome (files * value) :=
  do f <- checkfile w file;
  match x with
  | AVal (VStr s) => do r <- c_fwrite f (cstr s); Ok (with_stream w (snd r), VInt (fst r))
  | _ => Err EType
  end.
(** [YASL_io_flush], :192-199. *)
Definition io_flush (w : files) (file : arg) : outcome (files * value) :=
  do f <- checkfile w file; Ok (with_stream w (c_fflush f), VBool true).
(** [YASL_io_seek], :201-238: the offset is the last argument. *)
Definition io_seek (w : files) (file whence offset : arg) : outcome (files * value) :=
  do n <- match offset with AVal VUndef => Ok 0 | AVal (VInt i) => Ok i | _ => Err EType end;
  do o <- match whence with
          | AVal VUndef => Ok SeekSet
          | AVal (VStr x) => let t := cstr x in
              if list_eq_dec Z.eq_dec t [115; 101; 116] then Ok SeekSet else if list_eq_dec Z.eq_dec t [99; 117; 114] then Ok SeekCur
              else if list_eq_dec Z.eq_dec t [101; 110; 100] then Ok SeekEnd else Err EValue
          | _ => Err EType
          end;
  do f <- checkfile w file;
  let r := c_fseek f n o in Ok (with_stream w (snd r), VBool (fst r)).
(** [YASL_io_close], :240-246. *)
Definition io_close (w : files) (file : arg) : outcome (files * value) :=
  do f <- checkfile w file; Ok (Files (Some (f_data f)) None, VBool true).
(** [close_file], :32-34, which the file value's release runs ([ud_del_data], interpreter/userdata.c:18-24): [fclose] on a closed stream is undefined. *)
Definition file_release (w : files) : outcome files :=
  match handle w with Some f => Ok (Files (Some (f_data f)) None) | None => UB end.
