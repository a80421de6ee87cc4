(** Model of libs/common/src/version.rs and libs/common/src/prefix.rs.
    Simplification: [From<f32>] and the serde impls (which call [try_from] and the same format) are not modelled. *)
From Coq Require Import String.
From Verif Require Import Base.Tactics Base.Bytes Base.Ascii Base.Sort Base.Text.
Local Open Scope N_scope.

(** version.rs:16-22. *)
Record version := Version { major : N; minor : N; patch : N; build : option N; hash : option text }.

(** version.rs:252-282. *)
Inductive verror := UnknownVersion | ExpectedMajor | ExpectedMinor | ExpectedPatch | ExpectedBuild
| InvalidComponent (s : text).
Inductive vres := VOk (v : version) | VErr (e : verror).

(** version.rs:112-157 [try_from]. *)
Definition try_from (s : text) : vres :=
  match s with
  | [] => VErr UnknownVersion
  | _ =>
      match split_on 45 s with
      | [] => VErr UnknownVersion
      | first :: parts =>
          match split_on 46 first with
          | [] => VErr ExpectedMajor
          | c1 :: cs =>
              match parse_u32 c1 with
              | None => VErr (InvalidComponent c1)
              | Some ma =>
                  match cs with
                  | [] => VErr ExpectedMinor
                  | c2 :: cs =>
                      match parse_u32 c2 with
                      | None => VErr (InvalidComponent c2)
                      | Some mi =>
                          match cs with
                          | [] => VErr ExpectedPatch
                          | c3 :: cs =>
                              match parse_u32 c3 with
                              | None => VErr (InvalidComponent c3)
                              | Some pa =>
                                  match cs with
                                  | [] => VOk (Version ma mi pa None (hd_error parts))
                                  | c4 :: _ =>
                                      match parse_u32 c4 with
                                      | None => VErr (InvalidComponent c4)
                                      | Some b => VOk (Version ma mi pa (Some b) (hd_error parts))
                                      end
                                  end
                              end
                          end
                      end
                  end
              end
          end
      end
  end.

(** version.rs:238-250 [Display]. *)
Definition display (v : version) : text :=
  dec (major v) ++ [46] ++ dec (minor v) ++ [46] ++ dec (patch v)
  ++ match build v with Some b => [46] ++ dec b | None => [] end
  ++ match hash v with Some h => [45] ++ h | None => [] end.

(** version.rs:169-192 [partial_cmp] (always [Some]). *)
Definition compare (a b : version) : comparison :=
  if negb (major a =? major b) then (major a ?= major b)
  else if negb (minor a =? minor b) then (minor a ?= minor b)
  else if negb (patch a =? patch b) then (patch a ?= patch b)
  else match build a, build b with
       | None, None => Eq
       | None, _ => Lt
       | _, None => Gt
       | Some x, Some y => x ?= y
       end.

(** version.rs:84-108 [extract_version]. *)
Definition extract_version (ls : list text) (component : text) (error : verror) : N + verror :=
  match find (starts_with (bs "#define " ++ component)) ls with
  | None => inr error
  | Some line =>
      let code := trim (match split_once_str (bs "//") line with Some (a, _) => a | None => line end) in
      match rsplit_once 32 code with
      | None => inr error
      | Some (_, num) => match parse_u32 num with Some n => inl n | None => inr (InvalidComponent num) end
      end
  end.

(** version.rs:49-58 [try_from_script_version]. *)
Definition try_from_script_version (s : text) : vres :=
  let ls := map trim (lines s) in
  match extract_version ls (bs "MAJOR") ExpectedMajor with
  | inr e => VErr e
  | inl ma =>
      match extract_version ls (bs "MINOR") ExpectedMinor with
      | inr e => VErr e
      | inl mi =>
          match extract_version ls (bs "PATCH") ExpectedPatch with
          | inr e => VErr e
          | inl pa =>
              VOk (Version ma mi pa
                (match extract_version ls (bs "BUILD") ExpectedBuild with inl b => Some b | inr _ => None end) None)
          end
      end
  end.

(** ** prefix.rs *)
Inductive perror := PEmpty | PInvalid (s : text).
Inductive pres := POk (parts : list text) | PErr (e : perror).

Section Prefix.
  (** [str::to_lowercase]. *)
  Context (lower : text -> text).

  Definition starts_backslash (s : text) : bool := match s with 92 :: _ => true | _ => false end.

  (** prefix.rs:55-72: the first line whose key is "prefix". *)
  Fixpoint prefix_lines (content : text) (ls : list text) : pres :=
    match ls with
    | [] => PErr (PInvalid content)
    | l :: r =>
        match split_once 61 l with
        | None => prefix_lines content r
        | Some (k, v) =>
            if eqb_bytes (lower (trim k)) (bs "prefix") then
              if starts_backslash (trim v) then PErr (PInvalid (trim v)) else POk (split_on 92 (trim v))
            else prefix_lines content r
        end
    end.

  (** prefix.rs:37-74 [Prefix::new]. *)
  Definition prefix_new (content : text) : pres :=
    let content := trim content in
    match content with
    | [] => PErr PEmpty
    | _ =>
        if contains 47 content then PErr (PInvalid content)
        else if (length (lines content) =? 1)%nat && negb (contains 61 content) then
          if starts_backslash content then PErr (PInvalid content) else POk (split_on 92 content)
        else prefix_lines content (lines content)
    end.
End Prefix.

(** prefix.rs:107-111 [Display]. *)
Definition prefix_display (parts : list text) : text := join [92] parts.
