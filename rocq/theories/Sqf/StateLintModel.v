(** Model of two lints that follow the statements of a script or block: libs/sqf/src/analyze/lints/s23_reassign_reserved_variable.rs
    and s24_marker_spam.rs. Their hash maps are lists with one entry for a key; the order in which the last loops go through
    them (in Rust, any order) is that of insertion. *)
From Coq Require Import String.
From Verif Require Import Base.Tactics Base.Bytes Base.Ascii Base.Text Base.Sort Sqf.Ast.
Local Open Scope N_scope.
Local Open Scope list_scope.

Section Map.
  Context {V : Type}.
  Definition map_get (m : list (text * V)) (k : text) : option V := option_map snd (find (fun p => eqb_bytes (fst p) k) m).
  Definition map_remove (m : list (text * V)) (k : text) : list (text * V) := filter (fun p => negb (eqb_bytes (fst p) k)) m.
  Definition map_insert (m : list (text * V)) (k : text) (v : V) : list (text * V) := map_remove m k ++ [(k, v)].
End Map.

(** ** Reserved variables *)
(** s23:57-59. *)
Definition RESERVED : list text := [bs "this"; bs "_this"; bs "_forEachIndex"; bs "_exception"; bs "_thisScript"; bs "_thisFSM"; bs "thisList"; bs "thisTrigger"].
Definition is_reserved (n : text) : bool := existsb (eqb_bytes n) RESERVED.
(** s23:166-170 [Variant]. *)
Inductive reserved_code :=
| Overwrite (var : text) (sp : span)
| NeverRestored (holder : text) (sp : span) (original : text) (saved : span)
| SavedWhileSaved (holder : text) (sp changed : span) (original : text) (saved : span).
Record restoring := Restoring { just_saved : option (text * text * span); need_to_restore : list (text * (text * span * span)); codes : list reserved_code }.
(** s23:80-113: one statement. *)
Definition reserved_step (st : restoring) (s : stmt) : restoring :=
  match s with
  | SExpr _ _ => Restoring None (need_to_restore st) (codes st)
  | SGlobal var exp sp | SLocal var exp sp =>
      match (match just_saved st with Some (saved, original, ssp) => if eqb_bytes saved var then Some (saved, original, ssp) else None | None => None end) with
      | Some (saved, original, ssp) => Restoring None (map_insert (need_to_restore st) original (saved, sp, ssp)) (codes st)
      | None =>
          let codes1 := match map_get (need_to_restore st) var with
                        | Some (saved, original_save, ssp) => codes st ++ [SavedWhileSaved var sp original_save saved ssp]
                        | None => codes st
                        end in
          match (match exp with EVar r _ => match map_get (need_to_restore st) r with Some _ => Some r | None => None end | _ => None end) with
          | Some r => Restoring (just_saved st) (map_remove (need_to_restore st) r) codes1
          | None =>
              if is_reserved var then Restoring (just_saved st) (need_to_restore st) (codes1 ++ [Overwrite var sp])
              else
                match exp with
                | EVar saved nsp => if is_reserved saved then Restoring (Some (saved, var, nsp)) (need_to_restore st) codes1
                                    else Restoring (just_saved st) (need_to_restore st) codes1
                | _ => Restoring (just_saved st) (need_to_restore st) codes1
                end
          end
      end
  end.
Definition reserved_start : restoring := Restoring None [] [].
(** s23:62-120: the runner on a script or block. *)
Definition s23 (c : list stmt) : list reserved_code :=
  let st := fold_left reserved_step c reserved_start in
  codes st ++ map (fun p => NeverRestored (fst p) (snd (fst (snd p))) (fst (fst (snd p))) (snd (snd p))) (need_to_restore st).
(** s23:122-164: the runner on an expression. *)
Definition param_name (e : expr) : option (text * span) :=
  match e with
  | EString n sp _ => Some (n, sp)
  | EArray (EString n sp _ :: _) _ => Some (n, sp)
  | _ => None
  end.
Fixpoint first_reserved (l : list expr) : list reserved_code :=
  match l with
  | [] => []
  | p :: r => match param_name p with Some (n, sp) => if is_reserved n then [Overwrite n sp] else first_reserved r | None => first_reserved r end
  end.
Definition s23_params (lower : text -> text) (e : expr) : list reserved_code :=
  match e with
  | EUnary (UNamed cmd) exp _ | EBinary (BNamed cmd) _ exp _ =>
      if eqb_bytes (lower cmd) (bs "params") then match exp with EArray l _ | EConsumable l _ => first_reserved l | _ => [] end else []
  | _ => []
  end.

(** ** Marker updates *)
(** s24:108-118. *)
Definition ends_with (w s : text) : bool := starts_with (rev w) (rev s).
Definition is_marker_global (cmd : text) : bool := starts_with (bs "setMarker") cmd && negb (ends_with (bs "Local") cmd).
Definition marker_name (e : expr) : option text := match e with EVar n _ => Some n | EString n _ _ => Some n | _ => None end.
Definition calls := list (text * span).
(** s24:80-96: one statement; the state is what is pending, and what is reported. *)
Definition marker_step (st : list (text * calls) * list calls) (s : stmt) : list (text * calls) * list calls :=
  let '(pending, found) := st in
  match s with
  | SExpr (EBinary (BNamed cmd) name _ csp) _ =>
      if is_marker_global cmd then
        match marker_name name with
        | Some n => (map_insert pending n (match map_get pending n with Some l => l | None => [] end ++ [(cmd, csp)]), found)
        | None => (pending, found)
        end
      else (pending, found)
  | SExpr _ _ => (pending, found)
  | SGlobal n _ _ | SLocal n _ _ =>
      match map_get pending n with
      | Some l => (map_remove pending n, if (1 <? length l)%nat then found ++ [l] else found)
      | None => (pending, found)
      end
  end.
(** s24:61-106: the runner. *)
Definition s24 (c : list stmt) : list calls :=
  let '(pending, found) := fold_left marker_step c ([], []) in
  found ++ filter (fun l => (1 <? length l)%nat) (map snd pending).
