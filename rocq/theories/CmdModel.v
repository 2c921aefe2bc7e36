(* Special commands and the settings: parse/special.go, parse/save.go, config/config.go; and
   a session: lines of text, special commands among them, executed one after another.
   )demo and )timezone are outside.
   Printing is left out, and is taken to succeed; so is writing files.
   Executable; no proofs. *)
From Coq Require Import String Ascii.
From Verif Require Import Value NumModel Syntax ExecModel ScanModel TextModel StrModel SaveModel ReadModel SourceModel.
From Verif Require ParseModel ParseSpec.
Open Scope string_scope.
Open Scope list_scope.
Open Scope Z_scope.

(* config/config.go:31-62 Config: the settings the commands can change, without the time zone *)
Record settings := mkSettings {
  in_base : Z; out_base : Z; index_origin : Z; max_bits : Z; max_digits : Z; max_stack : Z; float_prec : Z;
  prompt_text : text; format_text : text; random_seed : Z; debug : list Z }.
(* config.go:64-83 init *)
Definition initial (seed : Z) : settings := mkSettings 0 0 1 1000000 10000 100000 256 [] [] seed [0; 0; 0; 0; 0; 0].
(* config.go:21-28 DebugFlags *)
Definition debug_flags : list text := map zs ["cpu"; "panic"; "parse"; "tokens"; "trace"; "types"].
(* config.go: the Set methods *)
Definition set_base (c : settings) (i o : Z) : settings :=
  mkSettings i o (index_origin c) (max_bits c) (max_digits c) (max_stack c) (float_prec c) (prompt_text c) (format_text c) (random_seed c) (debug c).
Definition set_origin (c : settings) (n : Z) : settings :=
  mkSettings (in_base c) (out_base c) n (max_bits c) (max_digits c) (max_stack c) (float_prec c) (prompt_text c) (format_text c) (random_seed c) (debug c).
Definition set_maxbits (c : settings) (n : Z) : settings :=
  mkSettings (in_base c) (out_base c) (index_origin c) n (max_digits c) (max_stack c) (float_prec c) (prompt_text c) (format_text c) (random_seed c) (debug c).
Definition set_maxdigits (c : settings) (n : Z) : settings :=
  mkSettings (in_base c) (out_base c) (index_origin c) (max_bits c) n (max_stack c) (float_prec c) (prompt_text c) (format_text c) (random_seed c) (debug c).
Definition set_maxstack (c : settings) (n : Z) : settings :=
  mkSettings (in_base c) (out_base c) (index_origin c) (max_bits c) (max_digits c) n (float_prec c) (prompt_text c) (format_text c) (random_seed c) (debug c).
Definition set_prec (c : settings) (n : Z) : settings :=
  mkSettings (in_base c) (out_base c) (index_origin c) (max_bits c) (max_digits c) (max_stack c) n (prompt_text c) (format_text c) (random_seed c) (debug c).
Definition set_prompt (c : settings) (t : text) : settings :=
  mkSettings (in_base c) (out_base c) (index_origin c) (max_bits c) (max_digits c) (max_stack c) (float_prec c) t (format_text c) (random_seed c) (debug c).
Definition set_format (c : settings) (t : text) : settings :=
  mkSettings (in_base c) (out_base c) (index_origin c) (max_bits c) (max_digits c) (max_stack c) (float_prec c) (prompt_text c) t (random_seed c) (debug c).
Definition set_seed (c : settings) (n : Z) : settings :=
  mkSettings (in_base c) (out_base c) (index_origin c) (max_bits c) (max_digits c) (max_stack c) (float_prec c) (prompt_text c) (format_text c) n (debug c).
Definition set_debug (c : settings) (l : list Z) : settings :=
  mkSettings (in_base c) (out_base c) (index_origin c) (max_bits c) (max_digits c) (max_stack c) (float_prec c) (prompt_text c) (format_text c) (random_seed c) l.

(* The state of the interpreter: exec.Context, the settings, runDepth (special.go:381), and
   the files. *)
Record session := mkSession { ses_ctx : ctx; ses_set : settings; ses_depth : Z; ses_files : text -> option text }.
Definition with_ctx (s : session) (st : ctx) : session := mkSession st (ses_set s) (ses_depth s) (ses_files s).
Definition with_set (s : session) (c : settings) : session := mkSession (ses_ctx s) c (ses_depth s) (ses_files s).
Definition with_depth (s : session) (d : Z) : session := mkSession (ses_ctx s) (ses_set s) d (ses_files s).
Definition write_file (s : session) (name t : text) : session :=
  mkSession (ses_ctx s) (ses_set s) (ses_depth s) (fun n => if teq n name then Some t else ses_files s n).

(* ---- the arguments of a command ---- *)
(* special.go:60-83 nextDecimalNumber64: the number and the tokens after it *)
Definition next_decimal64 (args : list token) : res (Z * list token) :=
  match args with
  | [] => Err
  | t :: rest =>
    match t_type t with
    | TNumber =>
      let! v := parse_num 10 (t_text t) in
      match v with
      | VInt n => if n <? 0 then Err else Ok (n, rest)
      | VBig z => if (z <? 0) || (2 ^ 63 - 1 <? z) then Err else Ok (z, rest)
      | _ => Err
      end
    | _ => Err
    end
  end.
(* special.go:48-56 nextDecimalNumber *)
Definition next_decimal (args : list token) : res (Z * list token) :=
  let! p := next_decimal64 args in
  if fst p <? 2 ^ 31 then Ok p else Err.
(* special.go:376-379 getString *)
Definition get_string (args : list token) : res (text * list token) :=
  match args with
  | [] => Err
  | t :: rest => match t_type t with TString => let! s := parse_string (t_text t) in Ok (s, rest) | _ => Err end
  end.
(* config.go:160-189 Debug and SetDebug *)
Fixpoint flag_index (w : text) (l : list text) : option nat :=
  match l with [] => None | f :: l' => if teq w f then Some O else option_map S (flag_index w l') end.
Definition replace {A} (l : list A) (k : nat) (a : A) : list A := firstn k l ++ a :: skipn (S k) l.

(* ---- saving ---- *)
(* save.go:134-156 sortSyms *)
Fixpoint insert_sym (p : string * value) (l : list (string * value)) : list (string * value) :=
  match l with
  | [] => [p]
  | q :: l' => if String.ltb (fst p) (fst q) then p :: l else q :: insert_sym p l'
  end.
Definition sort_syms (g : table rval) : list (string * value) :=
  fold_right insert_sym [] (map (fun p => (fst p, val (snd p))) g).
Section Save.
Variable u_print : Z -> bool.
Definition setting_line (name : string) (arg : text) : text := zs name ++ [32] ++ arg ++ [nl].
(* save.go:58-132 save: the contents of the file.  When it crashes, part of the file has been
   written, which is left out. *)
Definition save_text (s : session) : res text :=
  let c := ses_set s in
  let! ops := save_ops u_print (ses_ctx s) [] (defs (ses_ctx s)) in
  Ok (setting_line ")prec" (format_int 10 (float_prec c)) ++
      setting_line ")maxbits" (format_int 10 (max_bits c)) ++
      setting_line ")maxdigits" (format_int 10 (max_digits c)) ++
      setting_line ")origin" (format_int 10 (index_origin c)) ++
      setting_line ")prompt" (quote_string u_print (prompt_text c)) ++
      setting_line ")format" (quote_string u_print (format_text c)) ++
      ops ++
      match globals (ses_ctx s) with
      | [] => []
      | g => zs "# Set base 10 for parsing numbers." ++ [nl] ++ setting_line ")base" (zs "10") ++
             put_lines u_print (map (fun p => (text_of (fst p), snd p)) (sort_syms g))
      end ++
      setting_line ")ibase" (format_int 10 (in_base c)) ++
      setting_line ")obase" (format_int 10 (out_base c))).

(* ---- commands ---- *)
(* strings.ToLower, for the letters of ASCII *)
Definition lower (t : text) : text := map (fun r => if between 65 r 90 then r + 32 else r) t.
Definition word_in (w : text) (l : list string) : bool := existsb (fun x => teq w (zs x)) l.
Section Command.
(* special.go:385-391 runFromFile *)
Variable get : text -> session -> session * res unit.
(* The body of the switch, special.go:103-367: the command named w with the tokens after it;
   i and o are the variables ibase and obase.  The session, those variables, and the tokens
   left. *)
Definition setting (args : list token) (s : session) (i o : Z) (ok : Z -> bool) (f : settings -> Z -> settings) : session * (Z * Z) * res (list token) :=
  match args with
  | [] => (s, (i, o), Ok [])
  | _ => match next_decimal args with
         | Ok (n, rest) => if ok n then (with_set s (f (ses_set s) n), (i, o), Ok rest) else (s, (i, o), Err)
         | Err => (s, (i, o), Err) | Crash => (s, (i, o), Crash) | Unmod => (s, (i, o), Unmod)
         end
  end.
Definition string_setting (args : list token) (s : session) (i o : Z) (f : settings -> text -> settings) : session * (Z * Z) * res (list token) :=
  match args with
  | [] => (s, (i, o), Ok [])
  | _ => match get_string args with
         | Ok (t, rest) => (with_set s (f (ses_set s) t), (i, o), Ok rest)
         | Err => (s, (i, o), Err) | Crash => (s, (i, o), Crash) | Unmod => (s, (i, o), Unmod)
         end
  end.
(* special.go:181-204 *)
Definition debug_command (args : list token) (s : session) (i o : Z) : session * (Z * Z) * res (list token) :=
  let c := ses_set s in
  match args with
  | [] => (s, (i, o), Ok [])
  | t :: rest =>
    match t_type t with
    | TIdent =>
      match flag_index (t_text t) debug_flags with
      | None => (s, (i, o), Ok rest)
      | Some k =>
        match rest with
        | [] => (with_set s (set_debug c (replace (debug c) k (if nth k (debug c) 0 =? 0 then 1 else 0))), (i, o), Ok [])
        | _ => match next_decimal rest with
               | Ok (n, rest') => (with_set s (set_debug c (replace (debug c) k n)), (i, o), Ok rest')
               | Err => (s, (i, o), Err) | Crash => (s, (i, o), Crash) | Unmod => (s, (i, o), Unmod)
               end
        end
      end
    | _ => (s, (i, o), Err)
    end
  end.
Definition file_name (args : list token) : res (text * list token) :=
  match args with [] => Ok (zs "save.ivy", []) | _ => get_string args end.
Definition body (w : text) (args : list token) (s : session) (i o : Z) : session * (Z * Z) * res (list token) :=
  if word_in w ["help"] then                                                              (* 106-158 *)
    (s, (i, o), Ok (if match args with t :: _ => teq (lower (t_text t)) (zs "about") | [] => false end then skipn 3 args else skipn 1 args))
  else if word_in w ["base"; "ibase"; "obase"] then                                       (* 159-177 *)
    match args with
    | [] => (s, (i, o), Ok [])
    | _ => match next_decimal args with
           | Ok (b, rest) =>
             if negb (b =? 0) && ((b <? 2) || (16 <? b)) then (s, (i, o), Err)
             else (s, if teq w (zs "base") then (b, b) else if teq w (zs "ibase") then (b, o) else (i, b), Ok rest)
           | Err => (s, (i, o), Err) | Crash => (s, (i, o), Crash) | Unmod => (s, (i, o), Unmod)
           end
    end
  else if word_in w ["cpu"] then (s, (i, o), Ok args)                                     (* 178-179 *)
  else if word_in w ["debug"] then debug_command args s i o
  else if word_in w ["demo"; "timezone"] then (s, (i, o), Unmod)
  else if word_in w ["format"] then string_setting args s i o set_format                  (* 219-224 *)
  else if word_in w ["get"] then                                                          (* 225-230 *)
    match file_name args with
    | Ok (name, rest) => let (s', r) := get name s in (s', (i, o), match r with Ok _ => Ok rest | Err => Err | Crash => Crash | Unmod => Unmod end)
    | Err => (s, (i, o), Err) | Crash => (s, (i, o), Crash) | Unmod => (s, (i, o), Unmod)
    end
  else if word_in w ["maxbits"] then setting args s i o (fun _ => true) set_maxbits       (* 231-251 *)
  else if word_in w ["maxdigits"] then setting args s i o (fun _ => true) set_maxdigits
  else if word_in w ["maxstack"] then setting args s i o (fun _ => true) set_maxstack
  else if word_in w ["op"; "ops"] then                                                    (* 252-293 *)
    match args with
    | [] => (s, (i, o), Ok [])
    | t :: rest =>
      match t_type t with
      | TOperator | TIdent =>
        if ParseModel.names (unary (ses_ctx s)) (name_of (t_text t)) || ParseModel.names (binary (ses_ctx s)) (name_of (t_text t))
        then (s, (i, o), Ok rest) else (s, (i, o), Err)
      | _ => (s, (i, o), Err)
      end
    end
  else if word_in w ["origin"] then setting args s i o (fun n => 0 <=? n) set_origin      (* 294-304 *)
  else if word_in w ["prec"] then setting args s i o (fun n => negb ((n =? 0) || (1000000 <? n))) set_prec   (* 305-314 *)
  else if word_in w ["prompt"] then string_setting args s i o set_prompt                  (* 315-320 *)
  else if word_in w ["save"] then                                                         (* 321-328 *)
    match file_name args with
    | Ok (name, rest) =>
      match save_text (with_set s (set_base (ses_set s) i o)) with
      | Ok t => (write_file s name t, (i, o), Ok rest)
      | Err => (s, (i, o), Err) | Crash => (s, (i, o), Crash) | Unmod => (s, (i, o), Unmod)
      end
    | Err => (s, (i, o), Err) | Crash => (s, (i, o), Crash) | Unmod => (s, (i, o), Unmod)
    end
  else if word_in w ["seed"] then                                                         (* 329-334 *)
    match args with
    | [] => (s, (i, o), Ok [])
    | _ => match next_decimal64 args with
           | Ok (n, rest) => (with_set s (set_seed (ses_set s) n), (i, o), Ok rest)
           | Err => (s, (i, o), Err) | Crash => (s, (i, o), Crash) | Unmod => (s, (i, o), Unmod)
           end
    end
  else if word_in w ["var"; "vars"] then                                                  (* 345-364 *)
    match args with
    | [] => (s, (i, o), Ok [])
    | t :: rest =>
      match t_type t with
      | TIdent => match find (globals (ses_ctx s)) (name_of (t_text t)) with Some _ => (s, (i, o), Ok rest) | None => (s, (i, o), Err) end
      | _ => (s, (i, o), Err)
      end
    end
  else (s, (i, o), Err).
(* special.go:92-374 special, after the parenthesis: the bases are 0 while the command runs,
   and are set to ibase and obase whether it succeeds or not *)
Definition special (args : list token) (s : session) : session * res unit :=
  let c := ses_set s in
  match args with
  | [] => (s, Err)
  | t :: rest =>
    match t_type t with
    | TIdent | TNumber | TOp =>
      let '(s1, (i, o), r) := body (t_text t) rest (with_set s (set_base c 0 0)) (in_base c) (out_base c) in
      (with_set s1 (set_base (ses_set s1) i o),
       match r with Ok [] => Ok tt | Ok (_ :: _) => Err | Err => Err | Crash => Crash | Unmod => Unmod end)
    | _ => (s, Err)
    end
  end.
End Command.

(* ---- lines ---- *)
Section Run.
Variables letters digits puncts symbols : Z -> bool.
Variables bu bb : string -> bool.
(* the built-in operators with their settings; the constants e and pi (value/const.go), which
   are floating-point numbers, here any values *)
Variable E : settings -> env.
Variables const_e const_pi : Z -> value.
(* exec/context.go:60-64 SetConstants *)
Definition set_constants (s : session) : session :=
  let p := float_prec (ses_set s) in
  with_ctx s (set_globals (ses_ctx s) (store (store (globals (ses_ctx s)) "e" (loud (const_e p))) "pi" (loud (const_pi p)))).
(* exec/context.go:44-52 NewContext *)
Definition new_session (c : settings) (files : text -> option text) : session :=
  set_constants (mkSession (mkCtx [] [] [] [] [] [] [] 0) c 0 files).
(* the expressions of a line in a file, special.go:434-449: each value that is not quiet is
   assigned to _ before the next is evaluated *)
Fixpoint eval_each (ex : task -> M rval) (l : list expr) : M unit :=
  match l with
  | [] => ret tt
  | e :: l' => do v <- ex (TExpr e); do _ <- (if quiet v then ret tt else assign_global "_" v); eval_each ex l'
  end.
(* parse.go:152-177 Line: the next line; what it is *)
Inductive read_line := RNone | RBad | REmpty | RSpecial (ts : list token) | RDef (ts : list ParseModel.token) | RLine (ts : list ParseModel.token).
Definition next_line (s : session) (sc0 : sc) : read_line * sc :=
  let b := in_base (ses_set s) in
  match read_tokens (scan_ctx b letters digits puncts symbols bu bb (ses_ctx s)) (S (length (input sc0) + length (pending sc0))) [] sc0 with
  | None => (RNone, sc0)
  | Some (None, _, q) => (RBad, q)
  | Some (Some _, false, q) => (RNone, q)
  | Some (Some ts, true, q) =>
    match ts with
    | [] => (REmpty, q)
    | t :: rest => match t_type t with
                   | TRParen => (RSpecial rest, q)
                   | TOp | TOpDelete => (RDef (map (parser_token b) ts), q)
                   | _ => (RLine (map (parser_token b) ts), q)
                   end
    end
  end.
(* parse.go:184-206 readTokensToNewline inside a definition: a line that holds only a comment
   is skipped, and the end of the input is an empty line.  None inside: an Error token. *)
Fixpoint read_in_body (c : sctx) (n : nat) (acc : list token) (q : sc) : option (option (list token) * sc) :=
  match n with
  | O => None
  | S m =>
    match Next c q with
    | None => None
    | Some (t, q1) =>
      match t_type t with
      | TErr => Some (None, q1)
      | TNewline => match acc with
                    | [] => if Nat.leb (length (t_text t)) 1 then Some (Some [], q1) else read_in_body c m acc q1
                    | _ => Some (Some (rev acc), q1)
                    end
      | TEof => Some (Some (rev acc), q1)
      | _ => read_in_body c m (t :: acc) q1
      end
    end
  end.
(* function.go:106-122: the lines of a body, up to an empty one, or one that does not parse *)
Fixpoint read_body (b : Z) (c : sctx) (d : ParseModel.scope) (k : nat) (q : sc) : list (list ParseModel.token) * sc :=
  match k with
  | O => ([], q)
  | S k' =>
    match read_in_body c (S (length (input q) + length (pending q))) [] q with
    | None => ([], q)
    | Some (None, q') => ([[ParseModel.KErr]], q')
    | Some (Some [], q') => ([], q')
    | Some (Some ts, q') =>
      let l := map (parser_token b) ts in
      match ParseModel.expression_list d (ParseModel.enough l) l with
      | ParseModel.POk _ _ => let (more, q2) := read_body b c d k' q' in (l :: more, q2)
      | _ => ([l], q')
      end
    end
  end.
(* function.go:27-155 functionDefn: the tokens ts of the line.  If they end with the "=" after
   the header, that is, without it they are a declaration, the operator is installed and the
   lines of the body are read. *)
Definition read_defn (s : session) (ts : list ParseModel.token) (q : sc) : line * sc :=
  let st := ses_ctx s in
  let b := in_base (ses_set s) in
  let parse ts more := ParseModel.parse_tokens bu bb (unary st) (binary st) ts more in
  match rev ts with
  | ParseModel.KAssign :: r =>
    match parse (rev r) [] with
    | LDefine fn0 fn true =>
      match f_body fn, define fn0 st with
      | None, (st1, Ok _) =>
        let (more, q') := read_body b (scan_ctx b letters digits puncts symbols bu bb st1)
                            (ParseSpec.def_scope bu bb (unary st) (binary st) fn0) (S (length (input q) + length (pending q))) q in
        (parse ts more, q')
      | _, _ => (parse ts [], q)
      end
    | _ => (parse ts [], q)
    end
  | _ => (parse ts [], q)
  end.
Section File.
Variable get : text -> session -> session * res unit.
(* a special command, and SetConstants after it when it did not fail *)
Definition command (args : list token) (s : session) : session * res unit :=
  match special get args s with
  | (s1, Ok _) => (set_constants s1, Ok tt)
  | (s1, r) => (s1, r)
  end.
(* special.go:421-450 runUntilError: at most k lines, until the end or an error *)
Fixpoint file_lines (k n : nat) (s : session) (sc0 : sc) : session * res unit :=
  match k with
  | O => (s, Unmod)
  | S k' =>
    match next_line s sc0 with
    | (RNone, _) => (s, Ok tt)
    | (RBad, _) => (s, Err)
    | (REmpty, q) => file_lines k' n s q
    | (RDef ts, q) =>
      let (l, q1) := read_defn s ts q in
      match eval_line (exec (E (ses_set s)) n) l (ses_ctx s) with
      | (st1, Ok _) => file_lines k' n (with_ctx s st1) q1
      | (st1, r) => (with_ctx s st1, match r with Ok _ => Ok tt | Err => Err | Crash => Crash | Unmod => Unmod end)
      end
    | (RSpecial args, q) =>
      match command args s with
      | (s1, Ok _) => file_lines k' n s1 q
      | (s1, r) => (s1, r)
      end
    | (RLine ts, q) =>
      let st := ses_ctx s in
      match ParseModel.parse_tokens bu bb (unary st) (binary st) ts [] with
      | LExprs l =>
        match eval_each (exec (E (ses_set s)) n) l st with
        | (st1, Ok _) => file_lines k' n (with_ctx s st1) q
        | (st1, r) => (with_ctx s st1, r)
        end
      | _ => (s, Err)
      end
    end
  end.
End File.
(* special.go:383-419 runFromFile and runFromReader, with stopOnError; n bounds the steps of
   the evaluation of a line, g the nesting *)
Fixpoint get_file (g n : nat) (name : text) (s : session) : session * res unit :=
  match ses_files s name with
  | None => (s, Err)
  | Some t =>
    let d := ses_depth s in
    if 10 <? d + 1 then (with_depth s (d + 1), Err)                        (* the error comes before the defer *)
    else if 10 <? d + 2 then (with_depth s (d + 2 - 1), Ok tt)             (* runUntilError fails likewise, and runFromReader recovers *)
    else match g with
    | O => (s, Unmod)
    | S g' =>
      let (s1, r) := file_lines (get_file g' n) (S (length t)) n (with_depth s (d + 2)) (new_scanner t) in
      (with_depth s1 (ses_depth s1 - 2), match r with Ok _ | Err => Ok tt | Crash => Crash | Unmod => Unmod end)
    end
  end.
(* The next line of the user's text: run.go:49-102 Run.  None: there is no further line. *)
Definition session_next (n : nat) (s : session) (sc0 : sc) : option (res (list rval) * session * sc) :=
  match next_line s sc0 with
  | (RNone, _) => None
  | (RBad, q) => Some (Err, s, q)
  | (REmpty, q) => Some (Ok [], s, q)
  | (RDef ts, q) =>
    let (l, q1) := read_defn s ts q in
    let (st1, r) := eval_line (exec (E (ses_set s)) n) l (ses_ctx s) in
    Some (match r with Ok _ => Ok [] | r => r end, with_ctx s st1, q1)                 (* parse.go:166-171: there is no value *)
  | (RSpecial args, q) =>
    match command (get_file 6 n) args s with
    | (s1, Ok _) => Some (Ok [], s1, q)
    | (s1, Err) => Some (Err, s1, q) | (s1, Crash) => Some (Crash, s1, q) | (s1, Unmod) => Some (Unmod, s1, q)
    end
  | (RLine ts, q) =>
    let st := ses_ctx s in
    match eval_line (exec (E (ses_set s)) n) (ParseModel.parse_tokens bu bb (unary st) (binary st) ts []) st with
    | (st1, Ok vs) =>
      if existsb (fun v => negb (quiet v)) vs
      then Some (Ok vs, with_ctx s (set_globals st1 (store (globals st1) "_" (List.last vs (loud (VInt 0))))), q)
      else Some (Ok vs, with_ctx s st1, q)
    | (st1, r) => Some (r, with_ctx s st1, q)
    end
  end.
Fixpoint session_text (k n : nat) (s : session) (sc0 : sc) : list (res (list rval)) * session * sc :=
  match k with
  | O => ([], s, sc0)
  | S k' => match session_next n s sc0 with
            | None => ([], s, sc0)
            | Some (r, s1, q) => let '(rs, s2, q2) := session_text k' n s1 q in (r :: rs, s2, q2)
            end
  end.
End Run.
End Save.
