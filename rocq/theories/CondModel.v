(** Model of the part of the parser that reads imports, build directives and conditional blocks at the top of a file
    (frontend/parser.c). Simplified: tokens carry numbers for names and strings; a condition in parentheses is one token that
    says whether it came out true (its evaluation is C45, C46, C56); [cSources] is left out; imported modules compile;
    an error ends the parse (recovery is C83). *)
From Coq Require Import Bool List Arith.
Import ListNotations.

(** token.h; [KDefine] is ##, [KCond b] an expression whose value is the literal [b]; the end of the file is []. *)
Inductive tok :=
| KImport | KTest | KIdent (n : nat) | KAs | KFrom | KStr (n : nat) | KComma
| KLBrace | KRBrace | KLParen | KRParen | KDefine | KIf | KCond (b : bool) | KElse
| KCDefine | KCInclude | KCBuild | KColon | KAt | KOther (n : nat).

(** Entities with their aliases, module, alias of the module; strings of @cDefine, @cInclude; files and libraries added. *)
Inductive node :=
| NImport (es : list (nat * nat)) (m : nat) (alias : option nat)
| NCode (include : bool) (s : nat)
| NSource (s : nat)
| NLib (s : nat).

Inductive res (A : Type) := Fail | Ok (x : A) (rest : list tok).
Arguments Fail {A}. Arguments Ok {A}.
Definition bind {A B} (r : res A) (f : A -> list tok -> res B) : res B :=
  match r with Fail => Fail | Ok x rest => f x rest end.

Scheme Equality for tok.
(** parser.c:276-296 [consume], [consume0] *)
Definition consume (k : tok) (ts : list tok) : res unit :=
  match ts with t :: r => if tok_beq t k then Ok tt r else Fail | [] => Fail end.
Definition ident (ts : list tok) : res nat := match ts with KIdent n :: r => Ok n r | _ => Fail end.
Definition str (ts : list tok) : res nat := match ts with KStr n :: r => Ok n r | _ => Fail end.
(** parser.c:429-437 [skipUntil] *)
Fixpoint skip_until (k : tok) (ts : list tok) : list tok :=
  match ts with [] => [] | t :: r => if tok_beq t k then ts else skip_until k r end.

(** parser.c:3464-3482 *)
Definition parse_entity (ts : list tok) : res (nat * nat) :=
  bind (ident ts) (fun n r =>
    match r with
    | KAs :: r => bind (ident r) (fun a r => Ok (n, a) r)
    | _ => Ok (n, n) r
    end).
(** parser.c:334-354 [parseMany] up to the brace *)
Fixpoint parse_entities (fuel : nat) (ts : list tok) : res (list (nat * nat)) :=
  match fuel with
  | 0 => Fail
  | S fuel =>
      match ts with
      | [] | KRBrace :: _ => Ok [] ts
      | _ => bind (parse_entity ts) (fun e r =>
          match r with
          | KComma :: r => bind (parse_entities fuel r) (fun es r => Ok (e :: es) r)
          | KRBrace :: _ => Ok [e] r
          | _ => Fail
          end)
      end
  end.

(** parser.c:3495-3511 [skipImportTestDecl]: behind the brace it stops at the closing one and does not take it; an alias is
    looked for only after entities. *)
Definition skip_import_test (ts : list tok) : res unit :=
  let tail (has : bool) (r : list tok) := bind (str r) (fun _ r =>
    match r with
    | KAs :: r' => if has then bind (ident r') (fun _ r => Ok tt r) else Ok tt r
    | _ => Ok tt r
    end) in
  match ts with
  | KLBrace :: r => bind (consume KFrom (skip_until KRBrace r)) (fun _ r => tail true r)
  | KIdent _ :: r => bind (consume KFrom r) (fun _ r => tail true r)
  | _ => tail false ts
  end.

(** parser.c:3513-3556 [parseImportDecl], after the keyword *)
Definition parse_import_body (ts : list tok) : res (list node) :=
  bind
    (match ts with
     | KIdent _ :: _ => bind (parse_entity ts) (fun e r => Ok (Some [e]) r)
     | KLBrace :: r =>
         bind (parse_entities (S (length r)) r) (fun es r =>
           match es with [] => Fail | _ => bind (consume KRBrace r) (fun _ r => Ok (Some es) r) end)
     | _ => Ok None ts
     end)
    (fun es r =>
      match es with
      | Some es => bind (consume KFrom r) (fun _ r => bind (str r) (fun m r => Ok [NImport es m None] r))
      | None => bind (str r) (fun m r =>
          match r with
          | KAs :: r => bind (ident r) (fun a r => Ok [NImport [] m (Some a)] r)
          | _ => Ok [NImport [] m None] r
          end)
      end).
Definition parse_import (test_mode : bool) (ts : list tok) : res (list node) :=
  match ts with
  | KTest :: r =>
      if test_mode then parse_import_body r
      else bind (skip_import_test r) (fun _ r => Ok [] r)
  | _ => parse_import_body ts
  end.

(** parser.c:3571-3600 [parseTopLevelDecl], 3288-3313 [parseCCode] *)
Definition s_src : nat := 0.
Definition s_clib : nat := 1.
Definition parse_decl (test_mode : bool) (ts : list tok) : res (list node) :=
  let code (i : bool) (r : list tok) := bind (consume KLParen r) (fun _ r => bind (str r) (fun s r =>
    bind (consume KRParen r) (fun _ r => Ok [NCode i s] r))) in
  match ts with
  | KImport :: r => parse_import test_mode r
  | KCDefine :: r => code false r
  | KCInclude :: r => code true r
  | _ => bind (consume KCBuild ts) (fun _ r =>
      match r with
      | KColon :: r => bind (ident r) (fun c r => bind (str r) (fun s r =>
          if c =? s_src then Ok [NSource s] r else if c =? s_clib then Ok [NLib s] r else Fail))
      | _ => bind (str r) (fun s r => Ok [NSource s] r)
      end)
  end.
(** parser.c:379-391 [parseManyNoSeparator] up to the brace *)
Fixpoint parse_decls (fuel : nat) (test_mode : bool) (ts : list tok) : res (list node) :=
  match fuel with
  | 0 => Fail
  | S fuel =>
      match ts with
      | [] | KRBrace :: _ => Ok [] ts
      | _ => bind (parse_decl test_mode ts) (fun ns r =>
               bind (parse_decls fuel test_mode r) (fun ms r => Ok (ns ++ ms) r))
      end
  end.
Definition parse_block (test_mode : bool) (ts : list tok) : res (list node) :=
  bind (consume KLBrace ts) (fun _ r => bind (parse_decls (S (length r)) test_mode r) (fun ns r =>
    bind (consume KRBrace r) (fun _ r => Ok ns r))).
(** A block that is passed over: up to the first closing brace *)
Definition skip_block (ts : list tok) : res unit :=
  bind (consume KLBrace ts) (fun _ r => consume KRBrace (skip_until KRBrace r)).

(** parser.c:3634-3640: the other branches once one was taken *)
Fixpoint skip_elses (fuel : nat) (ts : list tok) : res unit :=
  match fuel with
  | 0 => Fail
  | S fuel =>
      match ts with
      | KElse :: r =>
          let r := match r with KDefine :: r => skip_until KLBrace r | _ => r end in
          bind (skip_block r) (fun _ r => skip_elses fuel r)
      | _ => Ok tt ts
      end
  end.
(** parser.c:3602-3652 [conditionalTopLevelDecl] *)
Fixpoint parse_cond (fuel : nat) (test_mode : bool) (ts : list tok) : res (list node) :=
  match fuel with
  | 0 => Fail
  | S fuel =>
      match ts with
      | KDefine :: r =>
          bind (consume KIf r) (fun _ r => bind (consume KLParen r) (fun _ r =>
            match r with
            | KCond b :: r => bind (consume KRParen r) (fun _ r =>
                if b then
                  bind (parse_block test_mode r) (fun ns r =>
                    bind (skip_elses (S (length r)) r) (fun _ r => Ok ns r))
                else
                  bind (skip_block r) (fun _ r =>
                    match r with KElse :: r => parse_cond fuel test_mode r | _ => Ok [] r end))
            | _ => Fail
            end))
      | KLBrace :: _ => parse_block test_mode ts
      | _ => parse_decl test_mode ts
      end
  end.
Definition parse_conditional (test_mode : bool) (ts : list tok) : res (list node) :=
  parse_cond (S (length ts)) test_mode ts.
