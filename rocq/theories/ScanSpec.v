(* What is said about the scanner: the text it still has to deliver. *)
From Verif Require Import Value ScanModel.
Open Scope Z_scope.

(* The input as the user sees it: carriage returns do not count. *)
Definition nocr (t : text) : text := filter (fun r => negb (r =? 13)) t.
(* The text not yet delivered in a token. *)
Definition unread (s : sc) : text := skipn (start s) (input s) ++ nocr (pending s).
(* A state the scanner can be in between two calls of Next. *)
Definition scanner_ok (s : sc) : Prop :=
  (start s <= pos s <= length (input s))%nat /\ (fin s = true -> pending s = []) /\ (width s <= 1)%nat /\
  Forall (fun r => 0 <= r) (unread s).
Definition blank (r : Z) : Prop := r = 32 \/ r = 9.

(* the text from the position on *)
Definition to_come (s : sc) : text := skipn (pos s) (input s) ++ nocr (pending s).
(* Between two calls of Next: the previous token is complete, or the text is over. *)
Definition between_tokens (s : sc) : Prop := scanner_ok s /\ (start s = pos s \/ to_come s = []).
Definition comment (t : text) : Prop := t = [] \/ exists b, t = 35 :: b /\ Forall (fun r => r <> nl) b.
(* What one call of Next may do with the text that is to come. *)
Definition delivers (before : text) (t : token) (after : text) : Prop :=
  exists gap, Forall blank gap /\
  match t_type t with
  | TEof => after = [] /\ t_text t = [] /\ exists cm, comment cm /\ before = gap ++ cm
  | TErr => exists dropped, before = gap ++ dropped ++ after /\ dropped <> []
  | TNewline => before = gap ++ t_text t ++ after /\ exists cm, comment cm /\ t_text t = cm ++ [nl]
  | _ => before = gap ++ t_text t ++ after /\ exists r w, t_text t = r :: w /\ ~ blank r /\ r <> 35 /\ r <> nl
  end.
(* All tokens up to the end or the first error. *)
Fixpoint all_tokens (c : sctx) (n : nat) (s : sc) : option (list token) :=
  match n with
  | O => None
  | S m => match Next c s with
           | None => None
           | Some (t, s1) =>
             match t_type t with
             | TEof | TErr => Some [t]
             | _ => option_map (cons t) (all_tokens c m s1)
             end
           end
  end.

(* A list of tokens accounts for a whole text. *)
Inductive covers : list token -> text -> Prop :=
| cov_end : forall t v v', (t_type t = TEof \/ t_type t = TErr) -> delivers v t v' -> covers [t] v
| cov_cons : forall t l v v', t_type t <> TEof -> t_type t <> TErr -> delivers v t v' -> covers l v' -> covers (t :: l) v.

(* The loaded text not yet delivered holds a newline at its end only. *)
Fixpoint newline_only_last (t : text) : Prop := match t with [] => True | r :: t' => (r = nl -> t' = []) /\ newline_only_last t' end.
Definition loaded_line (s : sc) : Prop := newline_only_last (skipn (pos s) (input s)).
(* A token without a newline in it; the exceptions are raw strings and an operator ending
   in a point, which takes the character after the point whatever it is. *)
Definition on_one_line (t : token) : Prop :=
  ~ In nl (t_text t) \/ hd 0 (t_text t) = 96 \/ exists w, t_text t = w ++ [dot; nl].
(* An error loses text up to the end of its line only (an unterminated raw string: all). *)
Definition loses_one_line (before after : text) : Prop :=
  exists gap dropped, Forall blank gap /\ before = gap ++ dropped ++ after /\
    (newline_only_last dropped \/ hd 0 dropped = 96 /\ after = []).
(* The states met when a text is scanned from its beginning. *)
Inductive scanning (c : sctx) (t : text) : sc -> Prop :=
| sc_new : scanning c t (new_scanner t)
| sc_next : forall s k s', scanning c t s -> Next c s = Some (k, s') -> scanning c t s'.
(* The tokens of a text, as far as its end or the first error. *)
Definition tokens_of (c : sctx) (t : text) : option (list (ttype * text)) :=
  option_map (map (fun k => (t_type k, t_text k))) (all_tokens c (S (length (nocr t))) (new_scanner t)).

(* The form of the tokens of each kind.  [quoted_body q b]: b holds no q and no newline,
   except that a backslash takes the character after it along. *)
Fixpoint quoted_body (q : Z) (b : text) : Prop :=
  match b with
  | [] => True
  | r :: b' => if r =? 92 then match b' with [] => False | x :: b'' => x <> nl /\ quoted_body q b'' end
               else r <> q /\ r <> nl /\ quoted_body q b'
  end.
Definition ats (n : nat) : text := repeat at_sign n.
Definition token_form (c : sctx) (t : token) : Prop :=
  let w := t_text t in
  match t_type t with
  | TAssign => w = [61] | TSemi => w = [59] | TColon => w = [58]
  | TLBrack => w = [91] | TRBrack => w = [93] | TLParen => w = [40] | TRParen => w = [41]
  | TChar => exists r, w = [r] /\ 32 <= r <= 126
  | TString => exists q b, w = q :: b ++ [q] /\
      (q = 96 /\ ~ In 96 b \/ (q = 39 \/ q = 34) /\ quoted_body q b)
  | TOp => exists m n, w = ats m ++ [111; 112] ++ ats n
  | TOpDelete => exists m n, w = ats m ++ [111; 112; 100; 101; 108; 101; 116; 101] ++ ats n
  | TIdent => exists b n, w = b ++ ats n /\ b <> [] /\ Forall (fun r => is_alnum c r = true) b /\ (n <> O -> user_unary c b = true)
  | _ => True
  end.

(* A character that is part of no number in base b: neither a decimal digit, nor one of the
   letters that are digits of the base, nor the j of a complex number. *)
Definition beyond (b r : Z) : Prop :=
  ~ 48 <= r <= 57 /\ ~ 97 <= r < 97 + (b - 10) /\ ~ 65 <= r < 65 + (b - 10) /\ r <> 106.
(* A name: letters, digits and underscores, not beginning with a digit, one of them part of
   no number; not the name of an operator. *)
Definition name_text (c : sctx) (w : text) : Prop :=
  w <> [] /\ Forall (fun r => is_alnum c r = true) w /\ ~ 48 <= hd 0 w <= 57 /\ w <> [111; 112] /\ w <> [111; 112; 100; 101; 108; 101; 116; 101] /\
  defined c w = false /\ Exists (beyond (ibase c)) w.

(* The end of a text is calm: its last character is not a point, and none of its last two is
   a sign. *)
Definition calm_end (t : text) : Prop :=
  forall a r l, t = a ++ r :: l -> (r = 46 -> l <> []) /\ (r = 43 \/ r = 45 -> (2 <= length l)%nat).
