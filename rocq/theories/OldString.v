(** Model of include/daw/deprecated/daw_string.h ("ds.h" below): splitting, joining,
    trimming, replacing and formatting of std::string.  No proofs in this file.

    A string is the list of its characters (char is signed); positions are numbers,
    npos is [None] where nothing is computed with it.  The members of std::string and
    the algorithms used are written out first, as the standard specifies them;
    std::bad_alloc and std::length_error are not modelled.

    Not modelled: lexical_cast of other types than below, to_string and string_join
    (concatenations; more than four arguments do not compile), BasicString, which
    forwards to the functions here, and operator<<. *)
From Verif Require Import Common Ints BitsModel StringView.
Open Scope Z_scope.

(** std::string::find( t, pos ): the first position from pos on where t occurs. *)
Fixpoint is_prefix (t s : list Z) : bool :=
  match t, s with
  | [], _ => true
  | c :: t, d :: s => (c =? d) && is_prefix t s
  | _ :: _, [] => false
  end.
Fixpoint find_from (t s : list Z) : option nat :=
  if is_prefix t s then Some O
  else match s with
       | [] => None
       | _ :: s => match find_from t s with Some k => Some (S k) | None => None end
       end.
Definition str_find (s t : list Z) (pos : nat) : option nat :=
  if (length s <? pos)%nat then None
  else match find_from t (skipn pos s) with Some k => Some (pos + k)%nat | None => None end.
Definition elem (c : Z) (l : list Z) : bool := existsb (Z.eqb c) l.
(** The last position whose character satisfies [p]: find_last_of,
    find_last_not_of; the first: find_first_not_of. *)
Fixpoint last_pos (p : Z -> bool) (s : list Z) : option nat :=
  match s with
  | [] => None
  | c :: s => match last_pos p s with
              | Some k => Some (S k)
              | None => if p c then Some O else None
              end
  end.
Fixpoint first_pos (p : Z -> bool) (s : list Z) : option nat :=
  match s with
  | [] => None
  | c :: s => if p c then Some O else match first_pos p s with Some k => Some (S k) | None => None end
  end.
(** A position as a size_t. *)
Definition pos_z (r : option nat) : Z := match r with Some k => Z.of_nat k | None => npos end.
(** std::string::substr( pos, n ). *)
Definition str_substr (s : list Z) (pos n : Z) : res (list Z) :=
  if Z.of_nat (length s) <? pos then Throw
  else Ok (firstn (Z.to_nat (Z.min n (Z.of_nat (length s)))) (skipn (Z.to_nat pos) s)).
(** std::find_if( first, last, p ) on the characters of [s]; [n] = last - first. *)
Fixpoint find_if_pos (n : nat) (p : Z -> res bool) (s : list Z) (first : nat) : res nat :=
  match n with
  | O => Ok first
  | S n => c <- rd s first ;; b <- p c ;; if b then Ok first else find_if_pos n p s (S first)
  end.

(** ds.h:87-103, 106-120, 123-141, 144-160 the loop of the four functions that
    split; [fuel] bounds it. *)
Fixpoint split_loop (fuel : nat) (p : Z -> res bool) (s : list Z) (pos : nat) : res (list (list Z)) :=
  match fuel with
  | O => OutOfFuel
  | S fuel =>
      find_iter <- find_if_pos (length s - pos) p s pos ;;
      let piece := firstn (find_iter - pos) (skipn pos s) in
      if (find_iter =? length s)%nat then Ok [piece]
      else rest <- split_loop fuel p s (S find_iter) ;; Ok (piece :: rest)
  end.
Definition split_with (p : Z -> res bool) (s : list Z) : res (list (list Z)) :=
  split_loop (S (length s)) p s O.
(** isspace of the C locale: the argument is EOF (-1) or an unsigned char. *)
Definition c_isspace (c : Z) : res bool :=
  if (c <? -1) || (255 <? c) then UB else Ok ((c =? 32) || ((9 <=? c) && (c <=? 13))).
(** ds.h:87-103 split( sv ). *)
Definition split_space (s : list Z) : res (list (list Z)) := split_with c_isspace s.
(** ds.h:106-120 split( sv, delimiter ). *)
Definition split_char (s : list Z) (delimiter : Z) : res (list (list Z)) :=
  split_with (fun c => Ok (c =? delimiter)) s.
(** ds.h:123-141 split( sv, delimiters ). *)
Definition split_set (s delimiters : list Z) : res (list (list Z)) :=
  split_with (fun c => Ok (elem c delimiters)) s.
(** ds.h:144-160 split_if( sv, is_delim ). *)
Definition split_if (s : list Z) (is_delim : Z -> bool) : res (list (list Z)) :=
  split_with (fun c => Ok (is_delim c)) s.

(** ds.h:495-508 combine( strings, chr ). *)
Fixpoint str_combine_loop (is_first : bool) (strings : list (list Z)) (chr : list Z) : list Z :=
  match strings with
  | [] => []
  | str :: strings => (if is_first then [] else chr) ++ str ++ str_combine_loop false strings chr
  end.
Definition str_combine (strings : list (list Z)) (chr : list Z) : list Z := str_combine_loop true strings chr.

(** ds.h:213-216 ends_with( src, ending ) with a character; 218-222 with a string. *)
Definition ends_with_char (src : list Z) (ending : Z) : res bool :=
  if (0 <? length src)%nat then c <- rd src (length src - 1) ;; Ok (ending =? c) else Ok false.
Definition ends_with (src ending : list Z) : bool :=
  let pos := pos_z (last_pos (fun c => elem c ending) src) in
  negb (npos =? pos) && (pos =? sz (Z.of_nat (length src) - 1)).

(** ds.h:279-287 standard_split_delimiters: the pointer is read up to the first
    zero. *)
Definition standard_delimiters : list Z := [32; 12; 10; 13; 9; 11].
(** ds.h:289-300 trim_right_copy; 302-313 trim_right assigns the same. *)
Definition trim_right (str delimiters : list Z) : res (list Z) :=
  match str with
  | [] => Ok str
  | _ => str_substr str 0 (sz (pos_z (last_pos (fun c => negb (elem c delimiters)) str) + 1))
  end.
(** ds.h:315-326 trim_left_copy; 328-339 trim_left assigns the same. *)
Definition trim_left (str delimiters : list Z) : res (list Z) :=
  match str with
  | [] => Ok str
  | _ => str_substr str (pos_z (first_pos (fun c => negb (elem c delimiters)) str)) npos
  end.
(** ds.h:346-360 trim; 362-371 trim_copy. *)
Definition trim (str delimiters : list Z) : res (list Z) :=
  let start := pos_z (first_pos (fun c => negb (elem c delimiters)) str) in
  if npos =? start then Ok []
  else
    let end_ := pos_z (last_pos (fun c => negb (elem c delimiters)) str) in
    let len := sz (sz (end_ - start) + 1) in
    str_substr str start len.

(** ds.h:341-344 in( val, values ) with a character or a string; 373-380 contains. *)
Definition str_in (val values : list Z) : bool := negb (npos =? pos_z (str_find values val 0)).
Definition str_contains (str match_ : list Z) : bool := negb (pos_z (str_find str match_ 0) =? npos).

(** ds.h:382-406 search_replace; 408-416 search_replace_copy.  [fuel] bounds the
    loop. *)
Fixpoint search_replace_loop (fuel : nat) (s search_for replace_with : list Z) (pos : nat) : res (list Z) :=
  match fuel with
  | O => OutOfFuel
  | S fuel =>
      match str_find s search_for pos with
      | None => Ok s
      | Some pos =>
          let s := firstn pos s ++ replace_with ++ skipn (pos + length search_for) s in
          search_replace_loop fuel s search_for replace_with (pos + length replace_with)
      end
  end.

(** The regular expression of line 241, a brace, digits, colons each with one digit,
    a brace: the text between the braces and what follows, if it matches here. *)
Definition is_digit (c : Z) : bool := (48 <=? c) && (c <=? 57).
Fixpoint take_digits (s : list Z) : list Z * list Z :=
  match s with
  | c :: s' => if is_digit c then let (a, r) := take_digits s' in (c :: a, r) else ([], s)
  | [] => ([], [])
  end.
Fixpoint take_colons (s : list Z) : list Z * list Z :=
  match s with
  | c :: d :: s' =>
      if (c =? 58) && is_digit d then let (a, r) := take_colons s' in (c :: d :: a, r) else ([], s)
  | _ => ([], s)
  end.
Definition match_here (s : list Z) : option (list Z * list Z) :=
  match s with
  | c :: t =>
      if c =? 123 then
        let (ds, t) := take_digits t in
        let (cs, t) := take_colons t in
        match ds, t with
        | _ :: _, e :: rest => if e =? 125 then Some (ds ++ cs, rest) else None
        | _, _ => None
        end
      else None
  | [] => None
  end.
(** std::regex_search: the leftmost match; prefix( ), sm[1] and suffix( ). *)
Fixpoint regex_search (s : list Z) : option (list Z * list Z * list Z) :=
  match match_here s with
  | Some (body, rest) => Some ([], body, rest)
  | None =>
      match s with
      | [] => None
      | c :: s =>
          match regex_search s with
          | Some (prefix, body, rest) => Some (c :: prefix, body, rest)
          | None => None
          end
      end
  end.
(** Reading digits with operator>> into a size_t; a value out of range is the
    largest one. *)
Definition read_num (ds : list Z) : Z := fold_left (fun n c => 10 * n + (c - 48)) ds 0.
Definition read_size (ds : list Z) : Z := Z.min (read_num ds) npos.
(** arguments[ v ]. *)
Definition argument (args : list (list Z)) (v : Z) : res (list Z) :=
  if v <? Z.of_nat (length args) then rd args (Z.to_nat v) else UB.

(** ds.h:239-277 fmt( format, args... ); [args] are the texts of the arguments
    (unknowns_to_string, 53-82), [fixed a p] is what the stream shows for the text a
    read as a double with precision p.  [out] is what the stream holds; [fuel] bounds
    the loop. *)
Section Fmt.
  Variable fixed : list Z -> Z -> list Z.
  Fixpoint fmt_loop (fuel : nat) (args : list (list Z)) (format out : list Z) : res (list Z) :=
    match fuel with
    | O => OutOfFuel
    | S fuel =>
        match regex_search format with
        | None => Ok (out ++ format)
        | Some (prefix, body, suffix) =>
            let out := out ++ prefix in
            out <- (if ends_with prefix [123] then Ok (out ++ 123 :: body ++ [125])
                    else
                      delims <- split_char body 58 ;;
                      match delims with
                      | [] | [_] => a <- argument args (read_size body) ;; Ok (out ++ a)
                      | [d0; d1] =>
                          a <- argument args (read_size d0) ;; Ok (out ++ fixed a (read_num d1))
                      | _ => Throw
                      end) ;;
            fmt_loop fuel args suffix out
        end
    end.
  Definition fmt (format : list Z) (args : list (list Z)) : res (list Z) :=
    fmt_loop (S (length format)) args format [].
End Fmt.
