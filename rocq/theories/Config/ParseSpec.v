(** Specification vocabulary for C14 and C15: how strings and integers are written in a config. *)
From Coq Require Import String.
From Verif Require Import Base.Tactics Base.Bytes Base.Ascii Base.Text.
Local Open Scope N_scope.

(** [quoted s t]: [t] is [s] between double quotes with every double quote doubled. *)
Definition quoted (s : text) : text := [34] ++ flat_map (fun c => if c =? 34 then [34; 34] else [c]) s ++ [34].

Definition blank (w : text) : Prop := Forall (fun c => is_ws c = true) w.

(** [literal segs t]: a string literal of several segments, written "…" \n "…" \n "…", with white space
    around each \n. *)
Inductive literal : list text -> text -> Prop :=
| lit_one s : literal [s] (quoted s)
| lit_more s w1 w2 segs t : blank w1 -> blank w2 -> literal segs t ->
    literal (s :: segs) (quoted s ++ w1 ++ bs "\n" ++ w2 ++ t).

(** The text after a literal does not carry it on: no further quote, no \n with a further segment. *)
Definition literal_ends (rest : text) : Prop :=
  (forall r, rest <> 34 :: r) /\
  (forall w1 w2 r, blank w1 -> blank w2 -> rest <> w1 ++ bs "\n" ++ w2 ++ 34 :: r).

(** Line continuations: a backslash directly before a line break disappears together with it. *)
Inductive unfolded : text -> text -> Prop :=
| un_nil : unfolded [] []
| un_cont r t : unfolded r t -> unfolded (92 :: 10 :: r) t
| un_char c r t : unfolded r t -> (c = 92 -> forall r', r <> 10 :: r') -> unfolded (c :: r) (c :: t).

(** Digits and the number they spell in a base, most significant first. *)
Definition digit (c d : N) : Prop :=
  (d < 10 /\ c = 48 + d) \/ (10 <= d < 16 /\ (c = 97 + (d - 10) \/ c = 65 + (d - 10))).
Inductive spells (base : N) : text -> N -> Prop :=
| sp_nil : spells base [] 0
| sp_digit ds v c d : spells base ds v -> digit c d -> d < base -> spells base (ds ++ [c]) (v * base + d).

(** A number ends where no letter, digit, underscore or dot follows. *)
Definition number_ends (rest : text) : Prop :=
  match rest with
  | [] => True
  | c :: _ => ~ (48 <= c <= 57 \/ 65 <= c <= 90 \/ 97 <= c <= 122 \/ c = 95 \/ c = 46)
  end.

Definition signed (neg : bool) (v : N) : Z := if neg then (- Z.of_N v)%Z else Z.of_N v.
Definition sign_text (neg : bool) : text := if neg then bs "-" else [].
