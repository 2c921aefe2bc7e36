(* What is said about strings as text: the Unicode code points. *)
From Verif Require Import Value ScanModel StrModel.
Open Scope Z_scope.
Definition code_point (r : Z) : Prop := 0 <= r <= 0x10FFFF /\ ~ (0xD800 <= r <= 0xDFFF).
