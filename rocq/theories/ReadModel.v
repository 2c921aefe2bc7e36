(* From text to execution: the tokens of the scanner (ScanModel.v), with numbers and strings
   read (TextModel.v, StrModel.v), given to the parser (ParseModel.v) and the lines executed
   (ExecModel.v).  Special commands and definitions of operators are outside.
   Executable; no proofs. *)
From Coq Require Import String Ascii.
From Verif Require Import Value NumModel Syntax ExecModel ScanModel TextModel StrModel.
From Verif Require ParseModel.
Open Scope string_scope.
Open Scope list_scope.
Open Scope Z_scope.

(* A name as the bytes of its UTF-8 form *)
Definition utf8 (r : Z) : list Z :=
  if r <? 0x80 then [r]
  else if r <? 0x800 then [0xC0 + r / 64; 0x80 + r mod 64]
  else if r <? 0x10000 then [0xE0 + r / 4096; 0x80 + (r / 64) mod 64; 0x80 + r mod 64]
  else [0xF0 + r / 262144; 0x80 + (r / 4096) mod 64; 0x80 + (r / 64) mod 64; 0x80 + r mod 64].
Fixpoint bytes (l : list Z) : string :=
  match l with [] => EmptyString | b :: l' => String (ascii_of_nat (Z.to_nat b)) (bytes l') end.
Definition name_of (t : text) : string := bytes (flat_map utf8 t).

Definition got {A} (r : res A) : option A := match r with Ok a => Some a | _ => None end.
(* parse/parse.go:421-442, 450-494: what the parser does with the text of a token *)
Definition parser_token (base : Z) (t : token) : ParseModel.token :=
  match t_type t with
  | TNumber => ParseModel.KNum (got (parse_num base (t_text t)))
  | TString => ParseModel.KStr (got (parse_string (t_text t)))
  | TIdent => ParseModel.KId (name_of (t_text t))
  | TOperator => ParseModel.KOp (name_of (t_text t))
  | TAssign => ParseModel.KAssign
  | TLParen => ParseModel.KLParen
  | TRParen => ParseModel.KRParen
  | TLBrack => ParseModel.KLBrack
  | TRBrack => ParseModel.KRBrack
  | TSemi => ParseModel.KSemi
  | TColon => ParseModel.KColon
  | TOp => ParseModel.KDef
  | TOpDelete => ParseModel.KUndef
  | TErr => ParseModel.KErr
  | TChar | TEof | TNewline => ParseModel.KOther
  end.

Section Run.
(* the input base; the unicode package; the names of the built-in operators *)
Variable base : Z.
Variables letters digits puncts symbols : Z -> bool.
Variables bu bb : string -> bool.
Variable E : env.
(* exec/operator.go:10-36, as the scanner asks (scan.go:371, 389, 763) *)
Definition scan_ctx (st : ctx) : sctx :=
  mkSctx base (fun w => bb (name_of w)) (fun w => bb (name_of w) || bu (name_of w))
         (fun w => ParseModel.names (unary st) (name_of w)) (fun w => ParseModel.names (binary st) (name_of w))
         letters digits puncts symbols.
(* parse.go:152-177 Line, run.go:49-102 Run: the next line of the text.  None: there is no
   further line.  The scanner, the state, and what came of the line. *)
Definition run_next (n : nat) (s : sc) (st : ctx) : option (res (list rval) * ctx * sc) :=
  match read_tokens (scan_ctx st) (S (length (input s) + length (pending s))) [] s with
  | None => None
  | Some (None, _, s') => Some (Err, st, s')
  | Some (Some _, false, _) => None
  | Some (Some ts, true, s') =>
    let l := map (parser_token base) ts in
    match l with
    | ParseModel.KRParen :: _ | ParseModel.KDef :: _ | ParseModel.KUndef :: _ => Some (Unmod, st, s')
    | _ =>
      match eval_line (exec E n) (ParseModel.parse_tokens bu bb (unary st) (binary st) l []) st with
      | (st', Ok vs) =>
        if existsb (fun v => negb (quiet v)) vs
        then Some (Ok vs, set_globals st' (store (globals st') "_" (List.last vs (loud (VInt 0)))), s')
        else Some (Ok vs, st', s')
      | (st', r) => Some (r, st', s')
      end
    end
  end.
(* The next k lines: an error in a line is reported and the next line is run. *)
Fixpoint run_text (k n : nat) (s : sc) (st : ctx) : list (res (list rval)) * ctx * sc :=
  match k with
  | O => ([], st, s)
  | S k' => match run_next n s st with
            | None => ([], st, s)
            | Some (r, st', s') => let '(rs, st2, s2) := run_text k' n s' st' in (r :: rs, st2, s2)
            end
  end.
End Run.
