(** Model of src/cxy/stdlib/trie.cxy.  A key is the list of its characters.  The children
    of a node, a HashMap in the code (hash.cxy, see HashMapModel.v for the map itself),
    are a finite map kept as an association list; nodes are changed in place by the code
    and rebuilt along the path here. *)
From Coq Require Import NArith.
From stdpp Require Import numbers list.

Section trie.
Context {V : Type}.

(** trie.cxy:5-8; the tag is never used. *)
Inductive node : Type := Node (data : option V) (children : list (N * node)).
Definition data (n : node) : option V := let 'Node d _ := n in d.
(** trie.cxy:10-14 *)
Definition new_node : node := Node None [].
(** children.[c] and children.[c] = n *)
Fixpoint child (cs : list (N * node)) (c : N) : option node :=
  match cs with
  | [] => None
  | (d, n) :: cs => if decide (c = d) then Some n else child cs c
  end.
Fixpoint put (cs : list (N * node)) (c : N) (x : node) : list (N * node) :=
  match cs with
  | [] => [(c, x)]
  | (d, n) :: cs => if decide (c = d) then (d, x) :: cs else (d, n) :: put cs c x
  end.
(** trie.cxy:37-38 *)
Definition get (n : node) (c : N) : option node := let 'Node _ cs := n in child cs c.
(** trie.cxy:69-76 with TrieNode.add (16-25): walk down, creating nodes; [None] when the
    assertion fails (the key is there already). *)
Fixpoint add (n : node) (key : list N) (v : V) : option node :=
  let 'Node d cs := n in
  match key with
  | [] => match d with Some _ => None | None => Some (Node (Some v) cs) end
  | c :: key =>
    let sub := match child cs c with Some sub => sub | None => new_node end in
    match add sub key v with Some sub => Some (Node d (put cs c sub)) | None => None end
  end.
(** trie.cxy:78-93 *)
Fixpoint find_loop (n : node) (key : list N) (i : nat) (found : option (nat * V)) : option (nat * V) :=
  match key with
  | [] => found
  | c :: key =>
    match get n c with
    | None => found
    | Some sub => find_loop sub key (S i) (match data sub with Some v => Some (S i, v) | None => found end)
    end
  end.
Definition find_prefix (root : node) (key : list N) : option (nat * V) := find_loop root key 0 None.
(** trie.cxy:58-67 *)
Definition find (root : node) (key : list N) : option V :=
  match find_prefix root key with
  | Some (idx, v) => if decide (idx = length key) then Some v else None
  | None => None
  end.
Fixpoint add_all (n : node) (ks : list (list N * V)) : option node :=
  match ks with
  | [] => Some n
  | (k, v) :: ks => match add n k v with Some n => add_all n ks | None => None end
  end.
End trie.
Arguments node : clear implicits.
