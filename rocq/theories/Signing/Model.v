(** Model of libs/signing and libs/common/src/sign_version.rs.
    Big integers are [N]; SHA-1 and [to_lowercase] are parameters as in Pbo/Model.v. *)
From Coq Require Import String.
From Verif Require Import Base.Tactics Base.Bytes Base.Sort Base.Ascii Io.Model Pbo.Model.
Local Open Scope N_scope.

(** libs/common/src/sign_version.rs:8-42. *)
Inductive version := V2 | V3.

(** [Path::extension] on Unix, for a name: the last '/'-separated component, from its last dot on, unless
    that dot is its first character. Simplification: trailing separators and the components "." and ".."
    are not normalised away (they never have one of the extensions below). *)
Fixpoint after_last (c : N) (l : bytes) : option bytes :=
  match l with
  | [] => None
  | b :: r =>
      match after_last c r with
      | Some x => Some x
      | None => if b =? c then Some r else None
      end
  end.
Definition file_name (p : bytes) : bytes := match after_last 47 p with Some x => x | None => p end.
Definition extension (p : bytes) : bytes :=
  match file_name p with
  | [] => []
  | _ :: r => match after_last 46 r with Some x => x | None => [] end
  end.

(** sign_version.rs:51-66 and 67-80. *)
Definition v2_exts : list bytes :=
  map bs ["fxy"; "jpg"; "lip"; "ogg"; "p3d"; "paa"; "pac"; "png"; "rtm"; "rvmat"; "tga"; "wrp"; "wss"]%string.
Definition v3_exts : list bytes :=
  map bs ["bikb"; "cfg"; "ext"; "fsm"; "h"; "hpp"; "inc"; "sqf"; "sqfc"; "sqm"; "sqs"]%string.

(** sign_version.rs:47-82 [should_hash_file]. *)
Definition should_hash_file (v : version) (name : bytes) : bool :=
  existsb (eqb_bytes (extension name)) (match v with V2 => v2_exts | V3 => v3_exts end).

(** sign_version.rs:86-91 [nothing]. *)
Definition nothing (v : version) : bytes :=
  match v with V2 => bs "nothing" | V3 => bs "gnihton" end.

(** sign_version.rs:94-101. *)
Definition version_u32 (v : version) : N := match v with V2 => 2 | V3 => 3 end.

(** ** Big integers *)

(** [BigUint::modpow], by repeated squaring over the bits of the exponent. [None]: the modulus is zero (panic). *)
Fixpoint modpow_pos (a : N) (e : positive) (n : N) : N :=
  match e with
  | xH => a mod n
  | xO e' => let h := modpow_pos a e' n in (h * h) mod n
  | xI e' => let h := modpow_pos a e' n in (((h * h) mod n) * a) mod n
  end.
Definition modpow (a e n : N) : option N :=
  match n with
  | 0 => None
  | _ => Some (match e with 0 => 1 mod n | Npos p => modpow_pos a p n end)
  end.

(** lib.rs:31-35 [write_biguint]: little-endian bytes resized to [size] (padded with zeros or truncated). *)
Definition write_biguint (bn : N) (size : N) : bytes := le_bytes (N.to_nat size) bn.

(** [BigUint::from_bytes_be]. *)
Definition be_val (l : bytes) : N := le_val (rev l).

(** [Vec::resize]. *)
Definition resize (n : nat) (x : N) (l : bytes) : bytes :=
  if (n <=? length l)%nat then firstn n l else l ++ repeat x (n - length l).

(** lib.rs:97-105 [pad_hash]; [None]: [size - 36] underflows (panic). *)
Definition pad_hash (hash : bytes) (size : N) : option N :=
  if size <? 36 then None
  else Some (be_val (resize (N.to_nat (size - 36)) 255 [0; 1]
         ++ [0; 48; 33; 48; 9; 6; 5; 43] ++ [14; 3; 2; 26; 5; 0; 4; 20] ++ hash)).

(** ** Keys and signatures: private.rs:16-27, public.rs:12-17, signature.rs:12-21. *)
Record private_key := PrivateKey {
  k_authority : bytes; k_length : N; k_exponent : N; k_n : N;
  k_p : N; k_q : N; k_dp : N; k_dq : N; k_qinv : N; k_d : N }.
Record public_key := PublicKey { p_authority : bytes; p_length : N; p_exponent : N; p_n : N }.
Record bisign := BISign {
  s_version : version; s_authority : bytes; s_length : N; s_exponent : N; s_n : N;
  s_sig1 : N; s_sig2 : N; s_sig3 : N }.

(** private.rs:67-74 [to_public_key]. *)
Definition to_public_key (k : private_key) : public_key :=
  PublicKey (k_authority k) (k_length k) (k_exponent k) (k_n k).

(** error.rs; [SPanic]: a failed assertion or arithmetic panic. *)
Inductive serror := SEof | SInvalidLength | SAuthorityMismatch | SInvalidFileSorting | SHashMismatch
| SUnknownVersion (v : N) | SPbo (e : pbo_error) | SPanic.
Inductive sres (A : Type) := SOk (a : A) | SErr (e : serror).
Arguments SOk {A}. Arguments SErr {A}.
Definition sbind {A B} (r : sres A) (k : A -> sres B) : sres B :=
  match r with SOk a => k a | SErr e => SErr e end.
Notation "'let+' x ':=' r 'in' k" := (sbind r (fun x => k)) (at level 61, x pattern, right associativity).
Definition of_opt_eof {A} (o : option A) : sres A := match o with Some a => SOk a | None => SErr SEof end.
Definition of_opt_panic {A} (o : option A) : sres A := match o with Some a => SOk a | None => SErr SPanic end.
Definition of_pbo {A} (r : res A) : sres A :=
  match r with Ok a => SOk a | Err EPanic => SErr SPanic | Err e => SErr (SPbo e) end.

(** [read_exact] into a buffer of [size] bytes, then [BigUint::from_bytes_le]. *)
Definition read_biguint (size : N) (l : bytes) : sres (N * bytes) :=
  let+ (x, rest) := of_opt_eof (take_exact (N.to_nat size) l) in SOk (le_val x, rest).
Definition read32 (l : bytes) : sres (N * bytes) := of_opt_eof (read_u32 l).

(** private.rs:188-211 [write_danger]. *)
Definition write_private (k : private_key) : bytes :=
  let half := k_length k / 16 in
  let full := k_length k / 8 in
  write_cstring (k_authority k) ++ u32_bytes (k_length k / 16 * 9 + 20)
  ++ [7; 2; 0; 0; 0; 36; 0; 0] ++ [82; 83; 65; 50] ++ u32_bytes (k_length k)
  ++ write_biguint (k_exponent k) 4 ++ write_biguint (k_n k) full
  ++ write_biguint (k_p k) half ++ write_biguint (k_q k) half
  ++ write_biguint (k_dp k) half ++ write_biguint (k_dq k) half
  ++ write_biguint (k_qinv k) half ++ write_biguint (k_d k) full.

(** private.rs:80-152 [read]. *)
Definition read_private (l : bytes) : sres (private_key * bytes) :=
  let (authority, l0) := read_cstring l in
  let+ (temp, l1) := read32 l0 in
  let+ (_, l2) := read32 l1 in
  let+ (_, l3) := read32 l2 in
  let+ (_, l4) := read32 l3 in
  let+ (len, l5) := read32 l4 in
  if negb (temp =? len / 16 * 9 + 20) then SErr SInvalidLength
  else
    let+ (e, l6) := read_biguint 4 l5 in
    let+ (n, l7) := read_biguint (len / 8) l6 in
    let+ (p, l8) := read_biguint (len / 16) l7 in
    let+ (q, l9) := read_biguint (len / 16) l8 in
    let+ (dp, l10) := read_biguint (len / 16) l9 in
    let+ (dq, l11) := read_biguint (len / 16) l10 in
    let+ (qinv, l12) := read_biguint (len / 16) l11 in
    let+ (d, l13) := read_biguint (len / 8) l12 in
    SOk (PrivateKey authority len e n p q dp dq qinv d, l13).

(** public.rs:62-71 [write]. *)
Definition write_public (k : public_key) : bytes :=
  write_cstring (p_authority k) ++ u32_bytes (p_length k / 8 + 20)
  ++ [6; 2; 0; 0; 0; 36; 0; 0] ++ [82; 83; 65; 49] ++ u32_bytes (p_length k)
  ++ write_biguint (p_exponent k) 4 ++ write_biguint (p_n k) (p_length k / 8).

(** public.rs:80-101 [read]; the [assert_eq!] is a panic. *)
Definition read_public (l : bytes) : sres (public_key * bytes) :=
  let (authority, l0) := read_cstring l in
  let+ (temp, l1) := read32 l0 in
  let+ (_, l2) := read32 l1 in
  let+ (_, l3) := read32 l2 in
  let+ (_, l4) := read32 l3 in
  let+ (len, l5) := read32 l4 in
  let+ (e, l6) := read32 l5 in
  if negb (temp =? len / 8 + 20) then SErr SPanic
  else
    let+ (n, l7) := read_biguint (len / 8) l6 in
    SOk (PublicKey authority len e n, l7).

(** signature.rs:89-105 [write]. *)
Definition write_sign (s : bisign) : bytes :=
  let full := s_length s / 8 in
  write_cstring (s_authority s) ++ u32_bytes (full + 20)
  ++ [6; 2; 0; 0; 0; 36; 0; 0] ++ [82; 83; 65; 49] ++ u32_bytes (s_length s)
  ++ write_biguint (s_exponent s) 4 ++ write_biguint (s_n s) full
  ++ u32_bytes full ++ write_biguint (s_sig1 s) full
  ++ u32_bytes (version_u32 (s_version s))
  ++ u32_bytes full ++ write_biguint (s_sig2 s) full
  ++ u32_bytes full ++ write_biguint (s_sig3 s) full.

(** signature.rs:114-165 [read]. *)
Definition read_sign (l : bytes) : sres (bisign * bytes) :=
  let (authority, l0) := read_cstring l in
  let+ (temp, l1) := read32 l0 in
  let+ (_, l2) := read32 l1 in
  let+ (_, l3) := read32 l2 in
  let+ (_, l4) := read32 l3 in
  let+ (len, l5) := read32 l4 in
  let+ (e, l6) := read32 l5 in
  if negb (temp =? len / 8 + 20) then SErr SPanic
  else
    let+ (n, l7) := read_biguint (len / 8) l6 in
    let+ (_, l8) := read32 l7 in
    let+ (s1, l9) := read_biguint (len / 8) l8 in
    let+ (v, l10) := read32 l9 in
    let+ v := (if v =? 2 then SOk V2 else if v =? 3 then SOk V3 else SErr (SUnknownVersion v)) in
    let+ (_, l11) := read32 l10 in
    let+ (s2, l12) := read_biguint (len / 8) l11 in
    let+ (_, l13) := read32 l12 in
    let+ (s3, l14) := read_biguint (len / 8) l13 in
    SOk (BISign v authority len e n s1 s2 s3, l14).

Section Params.
  Context (lower sha : bytes -> bytes).

  (** lib.rs:69-74 and 80-85: the prefix with a trailing backslash. *)
  Definition prefix_bytes (r : rpbo) : bytes :=
    match im_get s_prefix (r_props r) with
    | None => []
    | Some p => p ++ (match rev p with 92 :: _ => [] | _ => [92] end)
    end.

  (** lib.rs:59-93 [generate_hashes]. *)
  Definition generate_hashes (r : rpbo) (v : version) (len : N) : sres (N * N * N) :=
    let+ hash1 := of_pbo (gen_checksum lower sha r) in
    let+ names := of_pbo (hash_filenames lower sha r) in
    let hash2 := sha (hash1 ++ names ++ prefix_bytes r) in
    let+ files := of_pbo (hash_files lower sha (should_hash_file v) (nothing v) r) in
    let hash3 := sha (files ++ names ++ prefix_bytes r) in
    let+ a := of_opt_panic (pad_hash hash1 (len / 8)) in
    let+ b := of_opt_panic (pad_hash hash2 (len / 8)) in
    let+ c := of_opt_panic (pad_hash hash3 (len / 8)) in
    SOk (a, b, c).

  (** private.rs:158-179 [sign]. *)
  Definition sign (k : private_key) (r : rpbo) (v : version) : sres bisign :=
    let+ (h1, h2, h3) := generate_hashes r v (k_length k) in
    let+ s1 := of_opt_panic (modpow h1 (k_d k) (k_n k)) in
    let+ s2 := of_opt_panic (modpow h2 (k_d k) (k_n k)) in
    let+ s3 := of_opt_panic (modpow h3 (k_d k) (k_n k)) in
    SOk (BISign v (k_authority k) (k_length k) (k_exponent k) (k_n k) s1 s2 s3).

  (** public.rs:107-144 [verify] with signature.rs:76-83 [signatures_modpow]. *)
  Definition verify (key : public_key) (r : rpbo) (s : bisign) : sres unit :=
    if negb (eqb_bytes (p_authority key) (s_authority s)) then SErr SAuthorityMismatch
    else if negb (is_sorted lower r) then SErr SInvalidFileSorting
    else
      let+ (h1, h2, h3) := generate_hashes r (s_version s) (p_length key) in
      let+ x1 := of_opt_panic (modpow (s_sig1 s) (s_exponent s) (s_n s)) in
      let+ x2 := of_opt_panic (modpow (s_sig2 s) (s_exponent s) (s_n s)) in
      let+ x3 := of_opt_panic (modpow (s_sig3 s) (s_exponent s) (s_n s)) in
      if negb (h1 =? x1) then SErr SHashMismatch
      else if negb (h2 =? x2) then SErr SHashMismatch
      else if negb (h3 =? x3) then SErr SHashMismatch
      else SOk tt.
End Params.
