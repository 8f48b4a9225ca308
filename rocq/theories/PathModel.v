(** Model of the textual functions of src/cxy/stdlib/path.cxy on UNIX.  A path is the list
    of its bytes. *)
From Coq Require Import NArith.
From stdpp Require Import numbers list.
From Verif Require Import StrModel.

(** path.cxy:12-17 *)
Definition DIR_SEPARATOR : list N := [47%N].
(** path.cxy:40-48; String(path.str()) copies up to the first NUL, the paths are NUL-free.
    String.endswith forwards to __string.endswith (builtins.cxy:986-988). *)
Definition join (path suffix : list N) : sres (list N) :=
  match endswith path DIR_SEPARATOR with
  | SOk true => SOk (path ++ suffix)
  | SOk false => SOk (path ++ DIR_SEPARATOR ++ suffix)
  | SOob => SOob
  | SAssert => SAssert
  end.
(** path.cxy:266-274 *)
Definition dirname (path : list N) : sres (list N) :=
  match rfind path DIR_SEPARATOR with
  | SOk (Some sep) => substr path 0 (Some sep)
  | SOk None => SOk path
  | SOob => SOob
  | SAssert => SAssert
  end.
(** path.cxy:276-284 *)
Definition basename (path : list N) : sres (list N) :=
  match rfind path DIR_SEPARATOR with
  | SOk (Some sep) => substr path (sep + 1) None
  | SOk None => SOk path
  | SOob => SOob
  | SAssert => SAssert
  end.
(** path.cxy:105-111 *)
Definition name (path : list N) : sres (list N) := basename path.
