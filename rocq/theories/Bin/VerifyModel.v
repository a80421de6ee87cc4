(** Model of `hemtt utils verify` (bin/src/utils/verify.rs, bin/src/utils/inspect.rs [bikey] and [bisign]) and of the signing of a
    PBO as modules/sign.rs does it. The disk is what its files hold; the printed facts about the files are left out. *)
From Coq Require Import String.
From Verif Require Import Base.Tactics Base.Bytes Base.Sort Base.Ascii Io.Model Pbo.Model Signing.Model Bin.AddonModel.
Local Open Scope N_scope.
Local Open Scope list_scope.

(** The lines about the verification: a warning that the stored hash is wrong (verify.rs:61-63), the missing prefix (65-66), the
    wrong hash once more (67-68), and the result (71-104). *)
Inductive said := StoredWrong | NoPrefix | HashWrong | Verified | NotVerified (e : serror).
(** How the command ends: with exit status 0 after these lines, with an error, or with a panic. *)
Inductive ending := Exits (l : list said) | Fails | Panics.

Section Verify.
  Context (lower sha : bytes -> bytes).
  Definition opened {A} (r : res A) (k : A -> ending) : ending :=
    match r with Ok a => k a | Err EPanic => Panics | Err _ => Fails end.
  Definition file {A} (o : option A) (k : A -> ending) : ending := match o with Some a => k a | None => Fails end.
  Definition signed_ {A} (r : sres A) (k : A -> ending) : ending :=
    match r with SOk a => k a | SErr SPanic => Panics | SErr _ => Fails end.
  (** verify.rs:30-107 [execute]; [set_extension] panics if the extension has a separator in it. *)
  Definition verify_command (disk : path -> option bytes) (pbo_path key_path : path) : ending :=
    file (disk pbo_path) (fun b => opened (read b) (fun r =>
    file (disk key_path) (fun kb => signed_ (read_public kb) (fun kr => let key := fst kr in
    if existsb (N.eqb 47) (p_authority key) then Panics
    else
    file (disk (set_extension (bs "pbo." ++ p_authority key ++ bs ".bisign") pbo_path)) (fun sb => signed_ (read_sign sb) (fun sr =>
    opened (gen_checksum lower sha r) (fun actual =>
      let right := eqb_bytes (r_checksum r) actual in
      let lines :=
        (if right then [] else [StoredWrong]) ++
        (match im_get s_prefix (r_props r) with None => [NoPrefix] | Some _ => if right then [] else [HashWrong] end) in
      match verify lower sha key r (fst sr) with
      | SOk _ => Exits (lines ++ [Verified])
      | SErr SPanic => Panics
      | SErr e => Exits (lines ++ [NotVerified e])
      end))))))).

  (** modules/sign.rs:67-76, 104-116: the file of a public key; 97, 131 and 136-138: the PBO is opened and signed, and the
      signature written. *)
  Definition public_file (k : private_key) : bytes := write_public (to_public_key k).
  Inductive sign_error := OpenError (e : pbo_error) | SignError (e : serror).
  Definition sign_file (v : Model.version) (k : private_key) (b : bytes) : bytes + sign_error :=
    match read b with
    | Err e => inr (OpenError e)
    | Ok r => match sign lower sha k r v with SOk s => inl (write_sign s) | SErr e => inr (SignError e) end
    end.
End Verify.
