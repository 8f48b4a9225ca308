(** Model of the compiler's sorted lookups: [binarySearch] (src/cxy/core/utils.c:242-264),
    the member and enum option tables (lang/frontend/types.c:17-28, 1093-1120,
    1147-1157, 1241-1250; ttable.c:465-470, 985-1008), the named AST nodes
    (lang/frontend/ast.c:2907-2961), the table of builtin macros
    (lang/middle/eval/macro.c:1604-1676) and the order of enum options by value
    (lang/middle/sema/enum.c:11-15).
    Names are NUL-free lists of bytes. *)
From Coq Require Import Ascii String.
From stdpp Require Import numbers list.
Local Open Scope Z_scope.

(** The C library's [strcmp] (bytes compared as unsigned char). *)
Fixpoint strcmp (a b : list N) : Z :=
  match a, b with
  | [], [] => 0
  | [], y :: _ => - Z.of_N y
  | x :: _, [] => Z.of_N x
  | x :: a, y :: b => if (x =? y)%N then strcmp a b else Z.of_N x - Z.of_N y
  end.

(** (int)x *)
Definition to_i32 (z : Z) : Z := (z + 2 ^ 31) mod 2 ^ 32 - 2 ^ 31.

(** utils.c:242-264.  [arr] is the array, [cmp] compares the key with an element;
    [fuel] bounds the iterations ([None] when exhausted or outside the array). *)
Fixpoint bsearch_loop {A} (fuel : nat) (cmp : A -> Z) (arr : list A) (lower upper : Z) : option Z :=
  match fuel with
  | O => None
  | S fuel =>
    if lower <=? upper then
      let mid := to_i32 (lower + Z.quot (upper - lower) 2) in
      if mid <? 0 then None else
      match arr !! Z.to_nat mid with
      | None => None                          (* read outside the array *)
      | Some e =>
        let res := cmp e in
        if res =? 0 then Some mid
        else if 0 <? res then bsearch_loop fuel cmp arr (to_i32 (mid + 1)) upper
        else bsearch_loop fuel cmp arr lower (to_i32 (mid - 1))
      end
    else Some (-1)
  end.
Definition binarySearch {A} (cmp : A -> Z) (arr : list A) : option Z :=
  bsearch_loop (S (length arr)) cmp arr 0 (to_i32 (to_i32 (Z.of_nat (length arr)) - 1)).

(** types.c:17-22, 1147-1157 (the same for enum options, AST nodes and macros):
    a member is its name with its data. *)
Definition search_compare {D} (name : list N) (m : list N * D) : Z := strcmp name (fst m).
Definition findNamedTypeMemberInContainer {D} (sortedMembers : list (list N * D)) (name : list N)
  : option (option (list N * D)) :=
  match binarySearch (search_compare name) sortedMembers with
  | None => None
  | Some i => Some (if i =? -1 then None else sortedMembers !! Z.to_nat i)
  end.

(** macro.c:1614-1658: the table of names. *)
Fixpoint bytes_of_string (s : string) : list N :=
  match s with
  | EmptyString => []
  | String c s => N_of_ascii c :: bytes_of_string s
  end.
Definition builtinMacros : list (list N * nat) :=
  zip (map bytes_of_string
    ["__copy"; "__forcedrop"; "assert"; "ast_list_add"; "ast_paste"; "base_of"; "column"; "cstr";
     "data"; "destructor"; "error"; "ex"; "file"; "has_member"; "has_type"; "indexof"; "info";
     "init_defaults"; "is_base_of"; "lambda_of"; "len"; "line"; "lshift"; "mk_ast_list"; "mk_bc";
     "mk_field"; "mk_field_expr"; "mk_ident"; "mk_integer"; "mk_str"; "mk_struct_expr";
     "mk_tuple_expr"; "offset"; "ptroff"; "require"; "select"; "sizeof"; "typeat"; "typeof";
     "unchecked"; "varargs_def"; "warn"]%string) (seq 0 42).
Definition findBuiltinMacro (name : list N) : option (option (list N * nat)) :=
  findNamedTypeMemberInContainer builtinMacros name.

(** enum.c:11-15: the difference of two i64 (wrapping), cut to an int. *)
Definition compareEnumOptionsByValue (a b : Z) : Z := to_i32 (a - b).
