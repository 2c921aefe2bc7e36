(* What is said about special commands. *)
From Coq Require Import String.
From Verif Require Import Value NumModel Syntax ExecModel ScanModel ScanSpec TextModel TextSpec StrModel StrSpec SaveModel SaveSpec ReadModel CmdModel.
Open Scope string_scope.
Open Scope list_scope.
Open Scope Z_scope.

(* The ranges the documentation gives. *)
Definition legal_settings (c : settings) : Prop :=
  legal_base (in_base c) /\ legal_base (out_base c) /\ 1 <= float_prec c <= 1000000 /\ 0 <= index_origin c < 2 ^ 31 /\
  0 <= max_bits c < 2 ^ 31 /\ 0 <= max_digits c < 2 ^ 31 /\ 0 <= max_stack c < 2 ^ 31 /\ 0 <= random_seed c < 2 ^ 64 /\
  length (debug c) = 6%nat.
(* What ")name n" is to do: the new settings, or an error. *)
Definition small (n : Z) : bool := n <? 2 ^ 31.
Definition base_number (n : Z) : bool := (n =? 0) || ((2 <=? n) && (n <=? 16)).
Definition when {A} (b : bool) (a : A) : option A := if b then Some a else None.
Definition documented (name : string) (n : Z) (c : settings) : option (option settings) :=
  if String.eqb name "base" then Some (when (base_number n)
      (mkSettings n n (index_origin c) (max_bits c) (max_digits c) (max_stack c) (float_prec c) (prompt_text c) (format_text c) (random_seed c) (debug c)))
  else if String.eqb name "ibase" then Some (when (base_number n)
      (mkSettings n (out_base c) (index_origin c) (max_bits c) (max_digits c) (max_stack c) (float_prec c) (prompt_text c) (format_text c) (random_seed c) (debug c)))
  else if String.eqb name "obase" then Some (when (base_number n)
      (mkSettings (in_base c) n (index_origin c) (max_bits c) (max_digits c) (max_stack c) (float_prec c) (prompt_text c) (format_text c) (random_seed c) (debug c)))
  else if String.eqb name "maxbits" then Some (when (small n)
      (mkSettings (in_base c) (out_base c) (index_origin c) n (max_digits c) (max_stack c) (float_prec c) (prompt_text c) (format_text c) (random_seed c) (debug c)))
  else if String.eqb name "maxdigits" then Some (when (small n)
      (mkSettings (in_base c) (out_base c) (index_origin c) (max_bits c) n (max_stack c) (float_prec c) (prompt_text c) (format_text c) (random_seed c) (debug c)))
  else if String.eqb name "maxstack" then Some (when (small n)
      (mkSettings (in_base c) (out_base c) (index_origin c) (max_bits c) (max_digits c) n (float_prec c) (prompt_text c) (format_text c) (random_seed c) (debug c)))
  else if String.eqb name "origin" then Some (when (small n)
      (mkSettings (in_base c) (out_base c) n (max_bits c) (max_digits c) (max_stack c) (float_prec c) (prompt_text c) (format_text c) (random_seed c) (debug c)))
  else if String.eqb name "prec" then Some (when ((1 <=? n) && (n <=? 1000000))
      (mkSettings (in_base c) (out_base c) (index_origin c) (max_bits c) (max_digits c) (max_stack c) n (prompt_text c) (format_text c) (random_seed c) (debug c)))
  else if String.eqb name "seed" then Some (when (n <? 2 ^ 63)
      (mkSettings (in_base c) (out_base c) (index_origin c) (max_bits c) (max_digits c) (max_stack c) (float_prec c) (prompt_text c) (format_text c) n (debug c)))
  else None.
(* The variables of two states agree, apart from those named in l. *)
Definition same_variables_but (l : list string) (a b : ctx) : Prop :=
  forall x, ~ In x l -> find (globals a) x = find (globals b) x.
(* nothing but the global variables has changed *)
Definition same_but_variables (a b : ctx) : Prop := set_globals b (globals a) = a.
(* The settings of b, with those of a that )save writes, except the bases. *)
Definition loaded_settings (a b : settings) : settings :=
  mkSettings (in_base b) (out_base b) (index_origin a) (max_bits a) (max_digits a) (max_stack b) (float_prec a)
             (prompt_text a) (format_text a) (random_seed b) (debug b).
