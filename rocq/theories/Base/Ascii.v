(** ASCII strings as byte lists, for readable examples, and ASCII lower-casing (an instance of the
    [to_lowercase] parameter used in examples and witnesses). *)
From Coq Require Import String Ascii.
From Verif Require Import Base.Tactics Base.Bytes.
Local Open Scope N_scope.

Fixpoint b_of_string (s : string) : bytes :=
  match s with
  | EmptyString => []
  | String c r => N_of_ascii c :: b_of_string r
  end.

Definition ascii_lower (l : bytes) : bytes :=
  map (fun b => if (65 <=? b) && (b <=? 90) then b + 32 else b) l.

Declare Scope bstr_scope.
Delimit Scope bstr_scope with b.
Definition bs (s : string) : bytes := b_of_string s.
Arguments bs s%string.
