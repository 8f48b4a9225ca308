(** Model of how src/cxy/stdlib/fserver.cxy finds the file for a request.  The operating
    system is two parameters: [realpath] and whether a path is a regular file. *)
From Coq Require Import NArith.
From stdpp Require Import numbers list.
From Verif Require Import StrModel PathModel.

Section fserver.
(** realpath(3): [None] when the path does not resolve. *)
Context (realpath : list N -> option (list N)).
Context (is_regular : list N -> bool).

(** fserver.cxy:238-247; the result of realpath is not checked, the buffer stays zero when
    it fails.  [cwd] is the result of getcwd. *)
Definition setupWwwDir (root cwd : list N) : list N :=
  match root with
  | [] => cwd
  | _ => match realpath root with Some p => p | None => [] end
  end.
(** fserver.cxy:531-560.  The text compared with wwwDir is the first wwwDir.size() bytes of
    the zero-filled buffer. *)
Definition fileExists (wwwDir rel : list N) : sres (option (list N)) :=
  match join wwwDir rel with
  | SOk b =>
    match realpath b with
    | None => SOk None
    | Some absolute =>
      match str_eq (take (length wwwDir) (absolute ++ replicate (length wwwDir) 0%N)) wwwDir with
      | SOk true => if is_regular absolute then SOk (Some absolute) else SOk None
      | SOk false => SOk None
      | SOob => SOob
      | SAssert => SAssert
      end
    end
  | SOob => SOob
  | SAssert => SAssert
  end.
End fserver.

(** The cache of loaded files, fserver.cxy:415-487, a HashMap compared with EqualsCase
    (builtins.cxy:1261-1267): the key of an entry and its content, which is kept up to date
    with the file the entry was made for ([content] gives the current content of a file).
    Failing system calls and the memory mapping are left out. *)
Definition lower (c : N) : N := if ((65 <=? c) && (c <=? 90))%N then (c + 32)%N else c.
Definition equalsCase (a b : list N) : bool :=
  Nat.eqb (length a) (length b) && bool_decide (map lower a = map lower b).
Definition cache : Type := list (list N).      (* the path of each entry *)
Definition loadFile (content : list N -> option (list N)) (c : cache) (path : list N) : cache * option (list N) :=
  match List.find (equalsCase path) c with
  | Some p => (c, content p)
  | None => match content path with
            | Some d => (path :: c, Some d)
            | None => (c, None)
            end
  end.
Fixpoint serve (content : list N -> option (list N)) (c : cache) (paths : list (list N)) : list (option (list N)) :=
  match paths with
  | [] => []
  | p :: paths => let '(c, d) := loadFile content c p in d :: serve content c paths
  end.
