(** Model of `hemtt utils pbo unpack` and `hemtt utils pbo extract`.
    The disk maps a path, given by its components from the root, to what is there. Only unix paths are
    modelled; symbolic links, permissions and a full disk are not. The archive's own file is read before
    anything is written, so it is given by its bytes. *)
From Coq Require Import String.
From Verif Require Import Base.Tactics Base.Bytes Base.Sort Base.Ascii Base.Text Io.Model Pbo.Model.
Local Open Scope N_scope.
Local Open Scope list_scope.

Inductive node := File (content : bytes) | Dir.
Definition path := list bytes.
Definition disk := path -> option node.

Fixpoint eqb_path (p q : path) : bool :=
  match p, q with
  | [], [] => true
  | a :: p', b :: q' => eqb_bytes a b && eqb_path p' q'
  | _, _ => false
  end.

Definition put (p : path) (n : node) (d : disk) : disk := fun q => if eqb_path p q then Some n else d q.

(** How a command ends: with exit status 0 after doing its work, with exit status 0 after only logging an
    error, with an error, or with a panic. *)
Inductive status := Done | Refused | Failed | Panicked.

Definition dot := bs ".".
Definition dotdot := bs "..".
Definition s_pboprefix := bs "$PBOPREFIX$".
Definition s_properties_txt := bs "properties.txt".

(** The components [std::path::Path] sees in a string: empty pieces and `.` are dropped. *)
Definition is_comp (c : bytes) : bool :=
  match c with [] => false | _ => negb (eqb_bytes c dot) end.
Definition comps (s : bytes) : list bytes := filter is_comp (split_on 47 s).

(** [std::fs::create_dir_all] of [at_] joined with [cs]: every component is entered, and created when it is
    missing; `..` leaves the folder. [None] is the error met when a component is a file; the disk is then
    left with the folders made so far. Also gives the folder reached. *)
Fixpoint make_dirs (d : disk) (at_ : path) (cs : list bytes) : disk * option path :=
  match cs with
  | [] => (d, Some at_)
  | c :: r =>
      if eqb_bytes c dotdot then make_dirs d (removelast at_) r
      else
        match d (at_ ++ [c]) with
        | Some Dir => make_dirs d (at_ ++ [c]) r
        | Some (File _) => (d, None)
        | None => make_dirs (put (at_ ++ [c]) Dir d) (at_ ++ [c]) r
        end
  end.

(** [File::create] at a path whose folder exists: a folder there is an error, a file is emptied. *)
Definition create (d : disk) (p : path) : option disk :=
  match d p with
  | Some Dir => None
  | _ => Some (put p (File []) d)
  end.

(** [OpenOptions::new().create(true).append(true)] followed by writing [text]. *)
Definition append_to (d : disk) (p : path) (text : bytes) : option disk :=
  match d p with
  | Some Dir => None
  | Some (File old) => Some (put p (File (old ++ text)) d)
  | None => Some (put p (File text) d)
  end.

(** unpack.rs:33-45: the loop over the properties. *)
Fixpoint unpack_props (out : path) (props : list (bytes * bytes)) (d : disk) : disk * status :=
  match props with
  | [] => (d, Done)
  | (key, value) :: r =>
      if eqb_bytes key s_prefix then
        match create d (out ++ [s_pboprefix]) with
        | Some d1 => unpack_props out r (put (out ++ [s_pboprefix]) (File value) d1)
        | None => (d, Failed)
        end
      else
        match append_to d (out ++ [s_properties_txt]) (key ++ [61] ++ value ++ [10]) with
        | Some d1 => unpack_props out r d1
        | None => (d, Failed)
        end
  end.

(** [str::replace('\\', "/")], unpack.rs:47. *)
Definition slashed (name : bytes) : bytes := map (fun b => if b =? 92 then 47 else b) name.

(** Whether the last piece of the string is a name that can be created as a file. *)
Definition names_a_file (s : bytes) : bool :=
  is_comp (last (split_on 47 s) []) && negb (eqb_bytes (last (split_on 47 s) []) dotdot).

Section Params.
  Context (lower : bytes -> bytes).

  (** unpack.rs:46-54: one pass of the loop over the headers. [Path::join] of a string that starts with `/`
      forgets the folder it is joined to; joining `/` alone gives the root, which has no parent (panic). *)
  Definition unpack_file (out : path) (r : rpbo) (h : header) (d : disk) : disk * status :=
    let s := slashed (h_name h) in
    let absolute := starts_with [47] s in
    match comps s with
    | [] => (d, if absolute then Panicked else Failed)
    | c :: cs =>
        let (d1, folder) := make_dirs d (if absolute then [] else out) (removelast (c :: cs)) in
        match folder with
        | None => (d1, Failed)
        | Some f =>
            if names_a_file s then
              let p := f ++ [last (c :: cs) []] in
              match create d1 p with
              | None => (d1, Failed)
              | Some d2 =>
                  match r_file lower (h_name h) r with
                  | None => (d2, Panicked)
                  | Some content => (put p (File content) d2, Done)
                  end
              end
            else (d1, Failed)
        end
    end.

  (** unpack.rs:46-55. *)
  Fixpoint unpack_files (out : path) (r : rpbo) (hs : list header) (d : disk) : disk * status :=
    match hs with
    | [] => (d, Done)
    | h :: rest =>
        let (d1, st) := unpack_file out r h d in
        match st with
        | Done => unpack_files out r rest d1
        | _ => (d1, st)
        end
    end.

  (** [Path::exists]. The root always exists. *)
  Definition exists_at (d : disk) (p : path) : bool :=
    match p with [] => true | _ => match d p with Some _ => true | None => false end end.

  (** unpack.rs:23-56 [execute]; [input] is the content of the archive, [out] the output folder. *)
  Definition unpack (input : bytes) (out : path) (d : disk) : disk * status :=
    match read input with
    | Err _ => (d, Failed)
    | Ok r =>
        if exists_at d out then (d, Refused)
        else
          let (d1, folder) := make_dirs d [] out in
          match folder with
          | None => (d1, Failed)
          | Some _ =>
              let (d2, st) := unpack_props out (r_props r) d1 in
              match st with
              | Done => unpack_files out r (r_headers r) d2
              | _ => (d2, st)
              end
          end
    end.

  (** extract.rs:23-40 [execute]: the disk, what is written to standard output, and how it ends. The folder
      of [out] is not created. *)
  Definition extract (input : bytes) (name : bytes) (out : option path) (d : disk) : disk * bytes * status :=
    match read input with
    | Err _ => (d, [], Failed)
    | Ok r =>
        match r_file lower name r with
        | None => (d, [], Refused)
        | Some content =>
            match out with
            | None => (d, content, Done)
            | Some p =>
                if exists_at d p then (d, [], Refused)
                else
                  match removelast p with
                  | [] => (put p (File content) d, [], Done)
                  | dir =>
                      match d dir with
                      | Some Dir => (put p (File content) d, [], Done)
                      | _ => (d, [], Failed)
                      end
                  end
            end
        end
    end.
End Params.
