(** Model of daw_memory_mapped_file.h (mm.h) with daw_unique_resource.h (ur.h), the
    POSIX version (lines 39-169) and the Windows version (170-358).

    The system is the set of open descriptors and of mappings; its answers to an open are
    parameters.  Closing what is not open and unmapping what is not mapped is undefined
    behaviour here (it would hit a descriptor of somebody else).  Elements are read from
    bytes, little endian.  NDEBUG is not assumed: the asserts of unique_resource and the
    use of an empty optional are both [UB].  No proofs in this file. *)
From Verif Require Import Common.
Open Scope Z_scope.

(** What the system answers to an open: whether the file can be opened, whether its size can be found, whether it can be mapped; its bytes. *)
Record answer := Answer { a_opens : bool; a_seeks : bool; a_maps : bool; a_bytes : list Z }.
(** The numbers from [s_next] on are not used yet. *)
Record sys := Sys { s_next : nat; s_fds : list nat; s_maps : list (nat * list Z) }.
Definition sys_init : sys := Sys 0 [] [].
Fixpoint mem (x : nat) (l : list nat) : bool := match l with [] => false | y :: l => (x =? y)%nat || mem x l end.
Fixpoint remove1 (x : nat) (l : list nat) : list nat := match l with [] => [] | y :: l => if (x =? y)%nat then l else y :: remove1 x l end.
Fixpoint find_map (a : nat) (l : list (nat * list Z)) : option (list Z) :=
  match l with [] => None | (b, bytes) :: l => if (a =? b)%nat then Some bytes else find_map a l end.
Fixpoint remove_map (a : nat) (l : list (nat * list Z)) : list (nat * list Z) :=
  match l with [] => [] | (b, bytes) :: l => if (a =? b)%nat then l else (b, bytes) :: remove_map a l end.
(** close( fd ) and munmap( address, size ). *)
Definition close (fd : nat) (s : sys) : res sys :=
  if mem fd (s_fds s) then Ok (Sys (s_next s) (remove1 fd (s_fds s)) (s_maps s)) else UB.
Definition munmap (a size : nat) (s : sys) : res sys :=
  match find_map a (s_maps s) with
  | Some bytes => if (size =? length bytes)%nat then Ok (Sys (s_next s) (s_fds s) (remove_map a (s_maps s))) else UB
  | None => UB
  end.

(** * The POSIX version *)
(** mm.h:51-55 fdata_t: file is -1 or a descriptor, ptr is null, MAP_FAILED or an address. *)
Inductive pointer := Null | Failed | At (a : nat).
Record fdata := Fdata { d_file : option nat; d_ptr : pointer; d_size : nat }.
Definition no_data : fdata := Fdata None Null 0.
(** mm.h:57-67 cleanup_t.  munmap( MAP_FAILED, size ) fails, and the failure is ignored. *)
Definition cleanup (d : fdata) (s : sys) : res (fdata * sys) :=
  s <- match d_ptr d with At a => munmap a (d_size d) s | _ => Ok s end;;
  s <- match d_file d with Some fd => close fd s | None => Ok s end;;
  Ok (no_data, s).
(** A memory_mapped_file_t is its unique_resource, that is an optional fdata_t. *)
Definition mmfile := option fdata.
(** ur.h:52-56 reset( ): the optional keeps its value. *)
Definition reset (m : mmfile) (s : sys) : res (mmfile * sys) :=
  match m with
  | Some d => r <- cleanup d s;; Ok (Some (fst r), snd r)
  | None => Ok (None, s)
  end.
(** ur.h:58-65 reset( new_value ). *)
Definition reset_to (m : mmfile) (new_value : fdata) (s : sys) : res (mmfile * sys) :=
  r <- reset m s;; Ok (Some new_value, snd r).
(** ur.h:67-70 release( ): an empty optional is dereferenced. *)
Definition release (m : mmfile) : res (fdata * mmfile) :=
  match m with Some d => Ok (d, None) | None => UB end.
(** mm.h:83-111 open; the mode does not matter here.  [a] says what the system answers. *)
Definition open (m : mmfile) (a : answer) (s : sys) : res (bool * mmfile * sys) :=
  r <- reset_to m no_data s;;
  let s := snd r in
  if negb (a_opens a) then Ok (false, Some (Fdata None Null 0), s)
  else
    let fd := s_next s in
    let s := Sys (S (s_next s)) (fd :: s_fds s) (s_maps s) in
    let fsz := if a_seeks a then Z.of_nat (length (a_bytes a)) else -1 in
    if fsz <=? 0 then
      r <- reset (Some (Fdata (Some fd) Null 0)) s;; Ok (false, fst r, snd r)
    else
      let size := Z.to_nat fsz in
      if a_maps a then
        let address := s_next s in
        Ok (true, Some (Fdata (Some fd) (At address) size), Sys (S (s_next s)) (s_fds s) ((address, a_bytes a) :: s_maps s))
      else
        r <- reset (Some (Fdata (Some fd) Failed size)) s;; Ok (false, fst r, snd r).
(** ur.h:90-98 operator->. *)
Definition arrow (m : mmfile) : res fdata := match m with Some d => Ok d | None => UB end.
(** mm.h:161-163 operator bool, 153-155 size( ). *)
Definition is_open (m : mmfile) : res bool :=
  d <- arrow m;; Ok (match d_file d, d_ptr d with Some _, Null => false | Some _, _ => true | None, _ => false end).
Definition size (m : mmfile) : res nat := d <- arrow m;; Ok (d_size d).
(** mm.h:113-151 operator[], and the elements from begin( ) to end( ): T has [w] bytes. *)
Definition element (bytes : list Z) : Z := fold_right (fun b acc => b + 256 * acc) 0 bytes.
Definition get (w : nat) (m : mmfile) (pos : nat) (s : sys) : res Z :=
  d <- arrow m;;
  match d_ptr d with
  | At a =>
      match find_map a (s_maps s) with
      | Some bytes => if (pos * w + w <=? length bytes)%nat then Ok (element (firstn w (skipn (pos * w) bytes))) else UB
      | None => UB
      end
  | _ => UB
  end.

(** Programs with several files.  [None] is an object that is not alive. *)
Definition objects := list (option mmfile).
Inductive op :=
| New (i : nat)                        (** mm.h:71 the default constructor *)
| Open (i : nat) (a : answer)
| IsOpen (i : nat)
| Size (i : nat)
| MoveNew (i j : nat)                  (** ur.h:24-26 the move constructor: i from j *)
| MoveAssign (i j : nat)               (** ur.h:28-32 move assignment: i from j *)
| Destroy (i : nat).                   (** ur.h:37-39 *)
(** The object i is alive. *)
Definition obj (o : objects) (i : nat) : res mmfile := match nth_error o i with Some (Some m) => Ok m | _ => UB end.
Definition dead (o : objects) (i : nat) : res unit := match nth_error o i with Some None => Ok tt | _ => UB end.
Definition b2z (b : bool) : Z := if b then 1 else 0.
(** One operation: the objects, the system and what the operation returns. *)
Definition step (o : objects) (s : sys) (p : op) : res (objects * sys * Z) :=
  match p with
  | New i => _ <- dead o i;; Ok (upd o i (Some None), s, 0)
  | Open i a => m <- obj o i;; r <- open m a s;; Ok (upd o i (Some (snd (fst r))), snd r, b2z (fst (fst r)))
  | IsOpen i => m <- obj o i;; b <- is_open m;; Ok (o, s, b2z b)
  | Size i => m <- obj o i;; n <- size m;; Ok (o, s, Z.of_nat n)
  | MoveNew i j => _ <- dead o i;; m <- obj o j;; Ok (upd (upd o j (Some None)) i (Some m), s, 0)
  | MoveAssign i j =>
      m <- obj o j;;
      r <- release m;;
      let o := upd o j (Some (snd r)) in
      n <- obj o i;;
      q <- reset_to n (fst r) s;;
      Ok (upd o i (Some (fst q)), snd q, 0)
  | Destroy i => m <- obj o i;; r <- reset m s;; Ok (upd o i None, snd r, 0)
  end.
Fixpoint run (o : objects) (s : sys) (ps : list op) : res (objects * sys * list Z) :=
  match ps with
  | [] => Ok (o, s, [])
  | p :: ps => r <- step o s p;; q <- run (fst (fst r)) (snd (fst r)) ps;; Ok (fst q, snd r :: snd q)
  end.

(** * The Windows version *)
(** mm.h:207-211 fdata_t: handle and ptr are null or a handle and an address. *)
Record wdata := Wdata { w_handle : option nat; w_ptr : option nat; w_size : nat }.
(** What the system answers: CreateFile succeeds; GetFileSizeEx; CreateFileMapping; MapViewOfFile; the bytes. *)
Record wanswer := Wanswer { wa_opens : bool; wa_sizes : bool; wa_mapping : bool; wa_view : bool; wa_bytes : list Z }.
(** UnmapViewOfFile( address ). *)
Definition unmap_view (a : nat) (s : sys) : res sys :=
  match find_map a (s_maps s) with Some _ => Ok (Sys (s_next s) (s_fds s) (remove_map a (s_maps s))) | None => UB end.
(** mm.h:213-223 cleanup_t: CloseHandle is called with d.handle, which is null by then, and fails. *)
Definition w_cleanup (d : wdata) (s : sys) : res (wdata * sys) :=
  s <- match w_ptr d with Some a => unmap_view a s | None => Ok s end;;
  Ok (Wdata None None 0, s).
Definition w_reset (m : option wdata) (s : sys) : res (option wdata * sys) :=
  match m with Some d => r <- w_cleanup d s;; Ok (Some (fst r), snd r) | None => Ok (None, s) end.
(** mm.h:248-282 open: handles are numbers like descriptors. *)
Definition w_open (m : option wdata) (a : wanswer) (s : sys) : res (bool * option wdata * sys) :=
  r <- w_reset m s;;
  let s := snd r in
  let m := Some (Wdata None None 0) in
  if negb (wa_opens a) then Ok (false, m, s)
  else
    let file_handle := s_next s in
    let s := Sys (S (s_next s)) (file_handle :: s_fds s) (s_maps s) in
    if negb (wa_sizes a) || (length (wa_bytes a) =? 0)%nat then
      r <- w_reset m s;; Ok (false, fst r, snd r)
    else
      let size := length (wa_bytes a) in
      if negb (wa_mapping a) then
        r <- w_reset (Some (Wdata None None size)) s;; Ok (false, fst r, snd r)
      else
        let handle := s_next s in
        let s := Sys (S (s_next s)) (handle :: s_fds s) (s_maps s) in
        s <- close file_handle s;;
        if negb (wa_view a) then
          r <- w_reset (Some (Wdata (Some handle) None size)) s;; Ok (false, fst r, snd r)
        else
          let address := s_next s in
          Ok (true, Some (Wdata (Some handle) (Some address) size), Sys (S (s_next s)) (s_fds s) ((address, wa_bytes a) :: s_maps s)).
(** mm.h:286-319 open with a wide path: the optional is not made first.  Nothing is done with it until the size is known. *)
Definition w_open_wide (m : option wdata) (a : wanswer) (s : sys) : res (bool * option wdata * sys) :=
  if negb (wa_opens a) then Ok (false, m, s)
  else
    let file_handle := s_next s in
    let s := Sys (S (s_next s)) (file_handle :: s_fds s) (s_maps s) in
    if negb (wa_sizes a) || (length (wa_bytes a) =? 0)%nat then
      r <- w_reset m s;; Ok (false, fst r, snd r)
    else
      match m with
      | None => UB
      | Some d =>
          let size := length (wa_bytes a) in
          if negb (wa_mapping a) then
            r <- w_reset (Some (Wdata None (w_ptr d) size)) s;; Ok (false, fst r, snd r)
          else
            let handle := s_next s in
            let s := Sys (S (s_next s)) (handle :: s_fds s) (s_maps s) in
            s <- close file_handle s;;
            if negb (wa_view a) then
              r <- w_reset (Some (Wdata (Some handle) (w_ptr d) size)) s;; Ok (false, fst r, snd r)
            else
              let address := s_next s in
              Ok (true, Some (Wdata (Some handle) (Some address) size), Sys (S (s_next s)) (s_fds s) ((address, wa_bytes a) :: s_maps s))
      end.
(** mm.h:345-348 operator bool. *)
Definition w_is_open (m : option wdata) : res bool :=
  match m with
  | Some d => Ok ((w_size d =? 0)%nat || match w_ptr d with None => true | _ => false end || match w_handle d with None => true | _ => false end)
  | None => UB
  end.
