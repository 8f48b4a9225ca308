(** Model of the encoders of src/cxy/stdlib/fetch.cxy.  Bytes are [N] below 256. *)
From Coq Require Import NArith.
From stdpp Require Import numbers list.
From Verif Require Import Base64Model.
Local Open Scope N_scope.

(** fetch.cxy:25 *)
Definition hex : list N := [48; 49; 50; 51; 52; 53; 54; 55; 56; 57; 97; 98; 99; 100; 101; 102].
Definition hex_at (k : N) : N := nth (N.to_nat k) hex 0.
(** fetch.cxy:28-31.  A [char] from 128 on is negative or above 'z': either way not in
    one of the ranges. *)
Definition plain (c : N) : bool :=
  ((97 <=? c) && (c <=? 122)) || ((65 <=? c) && (c <=? 90)) || ((48 <=? c) && (c <=? 57)).
(** fetch.cxy:24-42; an ASCII [char] is printed as one byte. *)
Fixpoint urlEncode (url : list N) : list N :=
  match url with
  | [] => []
  | c :: url => (if plain c then [c] else [37; hex_at (N.shiftr c 4); hex_at (N.land c 0xF)]) ++ urlEncode url
  end.

(** fetch.cxy:46-49; [u_file] is path().name(), [u_content] the bytes of the file, whose
    size is what getFileSize and fd.size() report. *)
Record upload : Type := mkU { u_name : list N; u_file : list N; u_type : list N; u_content : list N }.
(** fetch.cxy:81-85; the data items in the iteration order of the map. *)
Record form : Type := mkF { f_boundary : list N; f_data : list (list N * list N); f_uploads : list upload }.
(** fetch.cxy:77-79, 18: Content-Disposition: form-data; name= and a quote; a quote,
    ; filename= and a quote; Content-Type:  ; CR LF *)
Definition CONTENT_DISPOSITION : list N := [67; 111; 110; 116; 101; 110; 116; 45; 68; 105; 115; 112; 111;
  115; 105; 116; 105; 111; 110; 58; 32; 102; 111; 114; 109; 45; 100; 97; 116; 97; 59; 32; 110; 97; 109; 101; 61; 34].
Definition CONTENT_DISPOSITION_FILENAME : list N := [34; 59; 32; 102; 105; 108; 101; 110; 97; 109; 101; 61; 34].
Definition CONTENT_TYPE : list N := [67; 111; 110; 116; 101; 110; 116; 45; 84; 121; 112; 101; 58; 32].
Definition CRLF : list N := [13; 10].
Definition dashes : list N := [45; 45].
Definition empty (s : list N) : bool := match s with [] => true | _ => false end.
(** fetch.cxy:117-148; sendFile is taken to send the whole file. *)
Definition data_part (b : list N) (item : list N * list N) : list N :=
  dashes ++ b ++ CRLF ++ CONTENT_DISPOSITION ++ fst item ++ [34] ++ CRLF ++ CRLF ++ snd item ++ CRLF.
Definition upload_part (b : list N) (u : upload) : list N :=
  dashes ++ b ++ CRLF ++ CONTENT_DISPOSITION ++ u_name u ++ CONTENT_DISPOSITION_FILENAME ++ u_file u ++ [34] ++ CRLF
  ++ (if empty (u_type u) then [] else CONTENT_TYPE ++ u_type u ++ CRLF) ++ CRLF ++ u_content u ++ CRLF.
Definition multipartEncode (f : form) : list N :=
  let data := concat (map (data_part (f_boundary f)) (f_data f)) in
  match f_uploads f with
  | [] => data ++ dashes ++ f_boundary f ++ dashes
  | us => data ++ concat (map (upload_part (f_boundary f)) us) ++ dashes ++ f_boundary f ++ dashes
  end.
(** fetch.cxy:172-214; the sizes are not reduced modulo 2^64. *)
Definition len (s : list N) : N := N.of_nat (length s).
Fixpoint data_size (b : list N) (items : list (list N * list N)) (size : N) : N :=
  match items with
  | [] => size
  | it :: items =>
    data_size b items (size + (2 + len b + 8 + len CONTENT_DISPOSITION + 1 + len (fst it) + len (snd it)))
  end.
Fixpoint upload_size (b : list N) (us : list upload) (size : N) : N :=
  match us with
  | [] => size
  | u :: us =>
    let size := size + (2 + len b + 4 + len CONTENT_DISPOSITION + len (u_name u) + len CONTENT_DISPOSITION_FILENAME
                        + len (u_file u) + 1) in
    let size := if empty (u_type u) then size else size + (len CONTENT_TYPE + len (u_type u) + 2) in
    let size := size + 2 in
    let size := size + (len (u_content u) + 2) in
    upload_size b us size
  end.
Definition multipartEncodeSize (f : form) : N :=
  let size := data_size (f_boundary f) (f_data f) 0 in
  match f_uploads f with
  | [] => size + (4 + len (f_boundary f))
  | us => upload_size (f_boundary f) us size + (4 + len (f_boundary f))
  end.

(** fetch.cxy:105-115: names and values are written with base64.urlEncode. *)
Fixpoint form_loop (items : list (list N * list N)) (first : bool) : dres :=
  match items with
  | [] => DOk []
  | (k, v) :: items =>
    match urlEncodeBuffer k, urlEncodeBuffer v, form_loop items false with
    | DOk k, DOk v, DOk rest => DOk ((if first then [] else [38]) ++ k ++ [61] ++ v ++ rest)
    | _, _, _ => DOob
    end
  end.
Definition formUrlEncode (f : form) : dres := form_loop (f_data f) true.
(** fetch.cxy:159-170 *)
Fixpoint form_size (items : list (list N * list N)) (size : N) : N :=
  match items with
  | [] => size
  | (k, v) :: items => form_size items (size + (1 + urlEncodeSize (len k) + urlEncodeSize (len v)))
  end.
Definition urlEncodedSize (f : form) : N := form_size (f_data f) (N.of_nat (length (f_data f)) - 1).
