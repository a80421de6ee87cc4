(** Model of bin/src/utils/sqf/case.rs: putting the commands of an SQF file into their usual case. Text is a list of characters. *)
From Coq Require Import String.
From Verif Require Import Base.Tactics Base.Bytes Base.Ascii Base.Sort.
Local Open Scope N_scope.
Local Open Scope list_scope.

(** case.rs:52-68. *)
Inductive comment := NoComment | Single | Multi.
(** case.rs:81-85: what was written so far (reversed), the word being read, and the three flags. *)
Record state := State { out : list N; buffer : list N; in_quotes : bool; in_comment : comment; in_macro : bool }.
Definition start : state := State [] [] false NoComment false.

(** case.rs:89: the characters of a word. *)
Definition word_char (c : N) : bool :=
  ((97 <=? c) && (c <=? 122)) || ((65 <=? c) && (c <=? 90)) || ((48 <=? c) && (c <=? 57)) || (c =? 95).
(** case.rs:134: [buffer.to_uppercase() == buffer], for words of those characters. *)
Definition all_upper (w : list N) : bool := forallb (fun c => negb ((97 <=? c) && (c <=? 122))) w.

Section Case.
  (** The command of a name as the wiki writes it. *)
  Context (get : list N -> option (list N)).
  (** case.rs:172-183 [check_buffer]. *)
  Definition check_buffer (o b : list N) : list N :=
    match b with
    | [] => o
    | _ => match get b with Some n => rev n ++ o | None => rev b ++ o end
    end.
  Definition ends_with (c : N) (o : list N) : bool := match o with x :: _ => x =? c | [] => false end.
  (** case.rs:86-160, one character; the arms in order. *)
  Definition step (s : state) (c : N) : state :=
    let '(State o b q k m) := s in
    match q, k, m with
    | false, NoComment, false =>
        if word_char c then State o (b ++ [c]) q k m
        else let o' := check_buffer o b in
        if c =? 34 then State (c :: o') [] true k m
        else if c =? 47 then State (c :: o') [] q (if ends_with 47 o' then Single else k) m
        else if c =? 10 then State (c :: o') [] q k m
        else if c =? 42 then State (c :: o') [] q (if ends_with 47 o' then Multi else k) m
        else if c =? 40 then
          State (c :: (if eqb_bytes b (bs "LOG") then rev b ++ o else o')) [] q k (negb match b with [] => true | _ => false end && all_upper b)
        else State (c :: o') [] q k m
    | false, NoComment, true =>
        let o' := check_buffer o b in
        if c =? 34 then State (c :: o') [] true k m
        else if c =? 47 then State (c :: o') [] q (if ends_with 47 o' then Single else k) m
        else if c =? 10 then State (c :: o') [] q k m
        else if c =? 42 then State (c :: o') [] q (if ends_with 47 o' then Multi else k) m
        else if (c =? 41) || (c =? 44) then State (c :: rev b ++ o) [] q k false
        else State (c :: o') [] q k m
    | true, NoComment, _ => if c =? 34 then State (c :: o) b false k m else State (c :: o) b q k m
    | false, _, _ =>
        if c =? 10 then State (c :: check_buffer o b) [] q (match k with Single => NoComment | _ => k end) m
        else match k with
             | Multi => if c =? 47 then State (c :: o) b q (if ends_with 42 o then NoComment else k) m else State (c :: o) b q k m
             | _ => State (c :: o) b q k m
             end
    | true, _, _ => State (c :: o) b q k m
    end.
  (** case.rs:86-163: the new content. *)
  Definition fix_case (content : list N) : list N :=
    let s := fold_left step content start in rev (check_buffer (out s) (buffer s)).
  (** case.rs:164-169: what is written, if anything. *)
  Definition fix_file (content : list N) : option (list N) :=
    let o := fix_case content in if eqb_bytes content o then None else Some o.
End Case.
