(** Model of hemtt utils paa inspect and hemtt utils paa convert: bin/src/utils/paa/{inspect,convert}.rs, with
    [MipMap::get_image] of libs/paa/src/mipmap.rs.

    Simplifications: the DXT decoder (texpresso) and the picture encoder of the image crate are parameters. A disk is a function
    from paths to contents. How a table is drawn is not modelled, only its rows. Saving fails only where the encoder does, before
    a file is made. *)
From Coq Require Import String.
From Verif Require Import Base.Tactics Base.Bytes Base.Ascii Base.Sort Io.Model Paa.Model.
From Verif Require Lzo.Model.
Local Open Scope N_scope.
Local Open Scope list_scope.

(** inspect.rs:20-32 [MipMapInfo]. *)
Record row := Row { r_width : N; r_height : N; r_size : N; r_format : format; r_compressed : bool }.
(** inspect.rs:44-53. *)
Definition row_of (m : mipmap) : row := Row (width m) (m_height m) (blen (m_data m)) (m_format m) (is_compressed m).
(** inspect.rs:38-80 [inspect]: the format and the rows. *)
Definition inspect (file : bytes) : outcome (pax * list row) :=
  match read file with
  | Done p => Done (p_format p, map row_of (p_maps p))
  | Fail => Fail
  | Panic => Panic
  end.

(** A picture of the image crate: width, height and four bytes for each pixel. *)
Record picture := Picture { c_width : N; c_height : N; c_pixels : bytes }.
Definition disk := bytes -> option bytes.
Definition put (d : disk) (path content : bytes) : disk := fun p => if eqb_bytes p path then Some content else d p.
(** What the command ends with: status 0 or 1, or a panic; and what it says. *)
Inductive ending := Converted | AlreadyExists | NotSaved | Failed | Panicked.
(** The exit status: convert.rs:20-23, 25-30 give [Ok], bin/src/main.rs makes an error 1, and its hook (23) a panic. *)
Definition status (e : ending) : N := match e with Failed | Panicked => 1 | _ => 0 end.

Section Convert.
  (** texpresso [Format::decompress]: [None] is a panic. *)
  Context (decode : format -> bytes -> N -> N -> option bytes).
  (** What a failed unpacking leaves in a buffer of that many bytes. *)
  Context (left : bytes -> N -> bytes).
  (** image [save]: by the extension of the path. *)
  Context (encode : bytes -> picture -> option bytes).

  (** mipmap.rs:85-88: the size of the buffer. *)
  Definition room (m : mipmap) : N :=
    let n := width m * m_height m in match m_format m with Bc1 => n / 2 | _ => n end.
  (** mipmap.rs:89, 92: a buffer of zeros into which is unpacked; an error is ignored. *)
  Definition unpacked (m : mipmap) : bytes :=
    match Lzo.Model.decompress (room m) (m_data m) with
    | Lzo.Model.Val (Lzo.Model.Decoded out) => out ++ repeat 0 (N.to_nat (room m) - length out)
    | _ => left (m_data m) (room m)
    end.
  (** mipmap.rs:76-112 [get_image]. *)
  Definition get_image (m : mipmap) : option picture :=
    let data := if is_compressed m then unpacked m else m_data m in
    match decode (m_format m) data (width m) (m_height m) with
    | Some px => Some (Picture (width m) (m_height m) px)
    | None => None
    end.
  (** convert.rs:17-31 [execute]. *)
  Definition convert (d : disk) (paa output : bytes) : ending * disk :=
    match d output with
    | Some _ => (AlreadyExists, d)
    | None =>
        match d paa with
        | None => (Failed, d)
        | Some file =>
            match read file with
            | Fail => (Failed, d)
            | Panic => (Panicked, d)
            | Done p =>
                match p_maps p with
                | [] => (Panicked, d)
                | m :: _ =>
                    match get_image m with
                    | None => (Panicked, d)
                    | Some c =>
                        match encode output c with
                        | None => (NotSaved, d)
                        | Some content => (Converted, put d output content)
                        end
                    end
                end
            end
        end
    end.
End Convert.
