(** Model of what the language server finds at the cursor in a script: hls/src/sqf/locate.rs and the start of hls/src/sqf/hover.rs. *)
From Coq Require Import String.
From Verif Require Import Base.Tactics Base.Bytes Base.Sort Base.Ascii Base.Text Sqf.Ast Sqf.FormatModel.
Local Open Scope N_scope.
Local Open Scope list_scope.

(** locate.rs:51-58, 79-83 and others: the first that is found. *)
Definition first_some {A B} (f : A -> option B) : list A -> option B :=
  fix go l := match l with [] => None | x :: r => match f x with Some b => Some b | None => go r end end.

Section Locate.
  (** processed.rs:257-259 [Processed::mapping]: the token at a place of the preprocessed text: its file, and where it starts and ends there.
      (Workspace/ProcessedModel.v models it.) *)
  Context (map_at : N -> option (text * (N * N))).
  (** [original_start] and [original_end]: the file plays no part. *)
  Definition starts (p : N) : option N := match map_at p with Some (_, (s, _)) => Some s | None => None end.
  Definition ends (p : N) : option N := match map_at p with Some (_, (_, e)) => Some e | None => None end.
  (** The range of an expression in the original: both its ends must be known. *)
  Definition range (e : expr) : option (N * N) :=
    match starts (fst (full_span e)), ends (snd (full_span e)) with Some s, Some t => Some (s, t) | _, _ => None end.
  (** locate.rs:40-106 [locate_expression]. *)
  Fixpoint locate (e : expr) (o : N) : option expr :=
    match range e with
    | None => None
    | Some (s, t) =>
        if ((o <=? s) || (t <=? o))%bool then None
        else
          match e with
          | ECode c _ _ => first_some (fun st => match st with SGlobal _ x _ | SLocal _ x _ | SExpr x _ => locate x o end) c
          | EString _ sp _ | ENumber _ sp | EVar _ sp | EBool _ sp =>
              match map_at (fst sp) with
              | Some (_, (a, b)) => if ((a <=? o) && (o <? b))%bool then Some e else None
              | None => None
              end
          | EArray l _ | EConsumable l _ => first_some (fun x => locate x o) l
          | ENular _ _ => Some e
          | EUnary _ x _ =>
              match range x with
              | None => None
              | Some (a, b) => if ((a <=? o) && (o <? b))%bool then locate x o else Some e
              end
          | EBinary _ x y _ =>
              match range x with
              | None => None
              | Some (a, b) =>
                  if ((a <=? o) && (o <? b))%bool then locate x o
                  else
                    match range y with
                    | None => None
                    | Some (a', b') => if ((a' <=? o) && (o <? b'))%bool then locate y o else Some e
                    end
              end
          end
    end.
  (** locate.rs:12-38: [o] is where the cursor is in the file. Simplified: the sum of the line's start, as far as the preprocessor wrote the line
      before it out (else 0), and the character (locate.rs:20-24) is given. *)
  Definition locate_script (c : list stmt) (o : N) : option expr := first_some (fun st => locate (stmt_expr st) o) c.
  (** hover.rs:13-37: the command whose description is shown. *)
  Definition hover (c : list stmt) (o : N) : option text :=
    match locate_script c o with
    | Some (ENular n _) => Some n
    | Some (EUnary u _ _) => Some (unary_str u)
    | Some (EBinary b _ _ _) => Some (binary_str b)
    | _ => None
    end.
End Locate.
