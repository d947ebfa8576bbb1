(** Model of include/daw/deprecated/daw_string_split_range.h ("ssr.h" below) and of
    the two formatters of include/daw/deprecated/daw_string_fmt.h ("fmt.h").
    No proofs in this file.

    The views of ssr.h are those of StringView1.v, the views of fmt.h those of
    StringView.v; [dbg] are the range checks of the latter.  A failed assert is
    [Throw].  std::string results are the lists of their characters.

    Not modelled: the conversion of the arguments to text (to_string, streams),
    which is done before: [args] are the texts; the other overloads of split_string,
    which make views and call the constructor. *)
From Verif Require Import Common Ints BitsModel Math SeqContainers StringView StringPop ParserHelper StringView1 TextUtil.
Open Scope Z_scope.

(** ssr.h:22-29 string_split_iterator. *)
Record split_it := SI { si_str : view1; si_delim : view1; si_pos : Z }.
(** ssr.h:31-36 find_next. *)
Definition si_find_next (it : split_it) : res Z :=
  if empty1 (si_str it) then Ok npos else find1 (si_str it) (si_delim it) (si_pos it).
(** ssr.h:38-45 move_next; 63-66 ++it is this. *)
Definition si_move_next (it : split_it) : res split_it :=
  next_pos <- si_find_next it ;;
  if next_pos =? npos then Ok (SI (si_str it) (si_delim it) npos)
  else Ok (SI (si_str it) (si_delim it) (sz (next_pos + size1 (si_delim it)))).
(** ssr.h:54-61 the constructors; 137-143 end( ). *)
Definition si_begin (str delim : view1) : split_it := SI str delim 0.
Definition si_end : split_it := SI null1 null1 npos.
(** ssr.h:68-72 it++: the result and the iterator afterwards. *)
Definition si_post_inc (it : split_it) : res (split_it * split_it) :=
  tmp <- si_move_next it ;; Ok (tmp, it).
(** ssr.h:74-78 operator*; 80-84 operator-> is the same. *)
Definition si_deref (it : split_it) : res view1 :=
  result <- remove_prefix1 (si_str it) (si_pos it) ;;
  n <- si_find_next it ;;
  substr1 result 0 (sz (n - si_pos it)).
(** ssr.h:86-92 equal_to; 100-112 the operators. *)
Definition si_equal (l r : split_it) : res bool :=
  if (si_pos l =? npos) && (si_pos r =? npos) then Ok true
  else
    s <- eq1 (si_str l) (si_str r) ;;
    if negb s then Ok false
    else if negb (si_pos l =? si_pos r) then Ok false
    else eq1 (si_delim l) (si_delim r).
(** A loop over the range: while( it != end ) { use( *it ); ++it; }, at most [fuel]
    rounds. *)
Fixpoint si_collect (fuel : nat) (it : split_it) : res (list view1) :=
  e <- si_equal it si_end ;;
  if e then Ok []
  else match fuel with
       | O => OutOfFuel
       | S fuel => p <- si_deref it ;; it <- si_move_next it ;; ps <- si_collect fuel it ;; Ok (p :: ps)
       end.
(** ssr.h:168-174 split_string( str, delemiter ) and such a loop. *)
Definition split_string (fuel : nat) (str delim : view1) : res (list view1) := si_collect fuel (si_begin str delim).

(** The memory of a std::string, and the characters of a view appended to one.
    (Line 115 calls a member to_string( ) for that, which the view does not have.) *)
Definition std_string (s : list Z) : list Z := s ++ [0].
Definition vread (v : view) : res (list Z) := read_n (Z.to_nat (vsize v)) (vmem v) (voff v).

Section V1.
  Variables dbg runtime : bool.
  Variable args : list (list Z).
  (** fmt.h:60-86 get_arg. *)
  Fixpoint get_arg_impl (cnt idx : Z) (args : list (list Z)) : res (list Z) :=
    match args with
    | [] => Throw
    | arg :: args => if cnt =? idx then Ok arg else get_arg_impl (wrap 8 (cnt + 1)) idx args
    end.
  Definition get_arg (idx : Z) : res (list Z) := get_arg_impl 0 idx args.
  (** fmt.h:110-117 the loop of fmt_t::operator( ); [fuel] bounds it. *)
  Fixpoint fmt1_loop (fuel : nat) (sv : view) (result : list Z) : res (list Z) :=
    if vempty sv then Ok result
    else match fuel with
         | O => OutOfFuel
         | S fuel =>
             ' (idx_str, sv) <- pop_front_until_char dbg runtime sv 125 ;;
             idx <- view_unsigned_int u8 idx_str ;;
             a <- get_arg idx ;;
             ' (t, sv) <- pop_front_until_char dbg runtime sv 123 ;;
             cs <- vread t ;;
             fmt1_loop fuel sv (result ++ a ++ cs)
         end.
  (** fmt.h:104-119 fmt_t::operator( ); 122-125 fmt. *)
  Definition fmt1 (format : list Z) : res (list Z) :=
    sv <- v_range_zt dbg (Some (std_string format)) 0 (Z.of_nat (length format)) ;;
    ' (t, sv) <- pop_front_until_char dbg runtime sv 123 ;;
    cs <- vread t ;;
    fmt1_loop (length format) sv cs.
End V1.

(** fmt.h:134-148 parse_token. *)
Inductive token := TIndex (n : Z) | TChar (c : Z) | TText (v : view).
Section V2.
  Variables dbg runtime asserts : bool.
  Definition assert_ (b : bool) : res unit := if asserts && negb b then Throw else Ok tt.
  (** result.emplace_back( parse_token( … ) ) on the bounded vector. *)
  Definition add (result : bvec token) (t : token) : res (bvec token) := b_emplace_back result 1 t.
  (** if( sz > 0 ) { result.emplace_back( msg.pop_front( sz ) ); sz = 0; }. *)
  Definition take_text (msg : view) (n : Z) (result : bvec token) : res (view * bvec token) :=
    if 0 <? n then
      ' (t, msg) <- pop_front dbg msg n ;; result <- add result (TText t) ;; Ok (msg, result)
    else Ok (msg, result).
  (** fmt.h:227-269 parse_tokens; [fuel] bounds the loop. *)
  Fixpoint parse_loop (fuel : nat) (msg : view) (n : Z) (result : bvec token) : res (bvec token) :=
    if negb (vempty msg) && (n <? vsize msg) then
      match fuel with
      | O => OutOfFuel
      | S fuel =>
          _ <- assert_ (b_size result <? b_capacity result) ;;
          c <- sv_index dbg msg n ;;
          if c =? 92 then
            ' (msg, result) <- take_text msg n result ;;
            _ <- assert_ (negb (vempty msg)) ;;
            ' (d, msg) <- pop_front_char dbg msg ;;
            result <- add result (TChar d) ;;
            parse_loop fuel msg 0 result
          else if c =? 123 then
            ' (msg, result) <- take_text msg n result ;;
            msg <- remove_prefix msg 1 ;;
            _ <- assert_ (negb (vempty msg)) ;;
            ' (i, msg) <- pop_front_until_char dbg runtime msg 125 ;;
            digit <- view_unsigned_int u64 i ;;
            result <- add result (TIndex digit) ;;
            parse_loop fuel msg 0 result
          else parse_loop fuel msg (sz (n + 1)) result
      end
    else if 0 <? n then
      _ <- assert_ (b_size result <? b_capacity result) ;;
      add result (TText msg)
    else Ok result.
  Definition parse_tokens (cap : nat) (msg : view) : res (bvec token) :=
    parse_loop (Z.to_nat (vsize msg)) msg 0 (b_empty (TIndex 0) cap).
  (** fmt.h:272-273 fmt_t( array ): N is the size of the array; 275-279 fmt_t(
      private_ctor, pointer ), used by 303-311, where N is the length. *)
  Definition fmt2_array (arr : list Z) : res (bvec token) :=
    msg <- v_literal dbg arr ;; parse_tokens (length arr / 2) msg.
  Definition fmt2_pointer (s : list Z) : res (bvec token) :=
    parse_tokens (length s / 2) (v_range (Some (std_string s)) 0 (Z.of_nat (length s))).
  (** fmt.h:150-204 operator( ) of a token: what it writes. *)
  Definition token_text (args : list (list Z)) (t : token) : res (list Z) :=
    match t with
    | TText v => vread v
    | TChar c => Ok [c]
    | TIndex pos => rs <- pack_apply (Z.to_nat pos) (fun _ => true) args ;; Ok (List.concat rs)
    end.
  Fixpoint tokens_text (args : list (list Z)) (ts : list token) : res (list Z) :=
    match ts with
    | [] => Ok []
    | t :: ts => a <- token_text args t ;; b <- tokens_text args ts ;; Ok (a ++ b)
    end.
  (** fmt.h:281-292 operator( ). *)
  Definition fmt2_call (m_tokens : bvec token) (args : list (list Z)) : res (list Z) :=
    ts <- b_contents m_tokens ;; tokens_text args ts.
  (** fmt.h:297-301 fmt( array, args... ); 303-311 fmt<pointer>( args... ), whose
      tokens are made at compile time: UB and Throw are then compile errors. *)
  Definition fmt2 (arr : list Z) (args : list (list Z)) : res (list Z) :=
    f <- fmt2_array arr ;; fmt2_call f args.
  Definition fmt2_ptr (s : list Z) (args : list (list Z)) : res (list Z) :=
    f <- fmt2_pointer s ;; fmt2_call f args.
End V2.
