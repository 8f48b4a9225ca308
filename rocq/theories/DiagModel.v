(** Model of the source quotations of diagnostics, src/cxy/core/log.c:158-305, without
    colours.  The file is its list of bytes and is taken not to change; reading bytes that
    [fread] did not fill in, and a count below zero, is [None]. *)
From stdpp Require Import numbers list.
From Verif Require Import FormatModel.

(** The bytes [fseek] and [fread] give. *)
Definition fread (f : list N) (offset n : nat) : list N := take n (drop offset f).
(** The search from the end of the chunk, log.c:166-169 *)
Fixpoint last_line (data : list N) (i : nat) : option nat :=
  match i with
  | O => None
  | S i => if bool_decide (data !! i = Some 10%N) then Some i else last_line data i
  end.
(** log.c:158-173; LINE_SEARCH_RANGE is 64 *)
Fixpoint find_line_begin (fuel : nat) (f : list N) (offset : nat) : option nat :=
  match fuel with
  | O => None
  | S fuel =>
    if offset =? 0 then Some 0
    else
      let range := if 64 <? offset then 64 else offset in
      let offset := offset - range in
      let data := fread f offset range in
      if length data <? range then None
      else match last_line data range with
           | Some i => Some (offset + i + 1)
           | None => find_line_begin fuel f offset
           end
  end.
Definition findLineBegin (f : list N) (offset : nat) : option nat := find_line_begin (S offset) f offset.
Fixpoint first_line (data : list N) (i : nat) : option nat :=
  match data with
  | [] => None
  | c :: t => if (c =? 10)%N then Some i else first_line t (S i)
  end.
(** log.c:175-189 *)
Fixpoint find_line_end (fuel : nat) (f : list N) (offset : nat) : option nat :=
  match fuel with
  | O => None
  | S fuel =>
    let data := fread f offset 64 in
    match first_line data 0 with
    | Some i => Some (offset + i)
    | None => if length data <? 64 then Some (offset + length data) else find_line_end fuel f (offset + length data)
    end
  end.
Definition findLineEnd (f : list N) (offset : nat) : option nat := find_line_end (S (length f)) f offset.
(** log.c:191-199 *)
Fixpoint count_digits (fuel : nat) (n : N) : nat :=
  match fuel with
  | O => 1
  | S fuel => if (n <? 10)%N then 1 else S (count_digits fuel (n / 10)%N)
  end.
Definition countDigits (n : N) : nat := count_digits 20 n.
(** log.c:201-207 *)
Definition printEmptySpace (n : nat) : list N :=
  if 4 <=? n then replicate 4 32%N ++ replicate (n - 4) 32%N else replicate n 32%N.

(** [fgets]: up to [n] bytes, up to and with a line break. *)
Fixpoint fgets (n : nat) (s : list N) : list N :=
  match n, s with
  | S n, c :: t => if (c =? 10)%N then [c] else c :: fgets n t
  | _, _ => []
  end.
(** What a C string holds. *)
Fixpoint c_string (s : list N) : list N :=
  match s with c :: t => if (c =? 0)%N then [] else c :: c_string t | [] => [] end.
Fixpoint last_index (s : list N) (i : nat) : option nat :=   (* strrchr *)
  match i with
  | O => None
  | S i => if bool_decide (s !! i = Some 10%N) then Some i else last_index s i
  end.
(** log.c:209-225; LINE_BUF_CAPACITY is 64 *)
Fixpoint print_file_line (fuel : nat) (s : list N) : list N :=
  match fuel with
  | O => []
  | S fuel =>
    let buf := fgets 63 s in
    match buf with
    | [] => []
    | _ => let str := c_string buf in
           match last_index str (length str) with
           | Some i => take i str
           | None => str ++ print_file_line fuel (drop (length buf) s)
           end
    end
  end.
Definition printFileLine (f : list N) (begin : nat) : list N :=
  print_file_line (S (length f)) (drop begin f) ++ [10%N].
(** log.c:227-235 *)
Definition printLineMarkers (count : nat) : list N := replicate count 94%N ++ [10%N].

Record floc := FLoc { b_row : N; b_off : nat; e_row : N; e_off : nat }.
Definition minus (a b : nat) : option nat := if a <? b then None else Some (a - b).
Definition bar : list N := [124%N].
(** log.c:242-305 *)
Definition printDiagnostic (f : list N) (loc : floc) : option (list N) :=
  let len := countDigits (e_row loc) in
  beginOffset ← findLineBegin f (b_off loc);
  pad ← minus len (countDigits (b_row loc));
  col ← minus (b_off loc) beginOffset;
  let quoted :=
    printEmptySpace (len + 1) ++ bar ++ [10%N] ++
    printEmptySpace pad ++ print_unsigned 64 (b_row loc) ++ [32%N] ++ bar ++ printFileLine f beginOffset ++
    printEmptySpace (len + 1) ++ bar ++ printEmptySpace col in
  if bool_decide (b_row loc = e_row loc) then
    n ← minus (e_off loc) (b_off loc);
    Some (quoted ++ printLineMarkers n)
  else
    e ← findLineEnd f (b_off loc);
    n ← minus e (b_off loc);
    endOffset ← findLineBegin f (e_off loc);
    m ← minus (e_off loc) endOffset;
    Some (quoted ++ printLineMarkers n ++
          (if (b_row loc + 1 <? e_row loc)%N then printEmptySpace len ++ [46; 46; 46; 10]%N else []) ++
          print_unsigned 64 (e_row loc) ++ [32%N] ++ bar ++ printFileLine f endOffset ++
          printEmptySpace (len + 1) ++ bar ++ printLineMarkers m).
