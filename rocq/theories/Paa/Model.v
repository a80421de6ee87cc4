(** Model of libs/paa/src: paa.rs, mipmap.rs, pax.rs. The DXT coder (texpresso) is a parameter: [compress] gives the bytes
    for an image; only their number is fixed, by [compressed_size]. A stream is all its bytes and a position. *)
From Coq Require Import String.
From Verif Require Import Base.Tactics Base.Bytes Base.Ascii Io.Model.
Local Open Scope N_scope.
Local Open Scope list_scope.

(** pax.rs:5-16, 29-57. *)
Inductive pax := DXT1 | DXT2 | DXT3 | DXT4 | DXT5 | RGBA4 | RGBA5 | RGBA8 | GRAYA.
Definition pax_bytes (p : pax) : bytes :=
  match p with
  | DXT1 => [1; 255] | DXT2 => [2; 255] | DXT3 => [3; 255] | DXT4 => [4; 255] | DXT5 => [5; 255]
  | RGBA4 => [68; 68] | RGBA5 => [21; 85] | RGBA8 => [136; 136] | GRAYA => [128; 128]
  end.
Definition pax_of_bytes (b : bytes) : option pax :=
  match b with
  | [x; y] =>
      if (x =? 1) && (y =? 255) then Some DXT1 else if (x =? 2) && (y =? 255) then Some DXT2 else if (x =? 3) && (y =? 255) then Some DXT3
      else if (x =? 4) && (y =? 255) then Some DXT4 else if (x =? 5) && (y =? 255) then Some DXT5 else if (x =? 68) && (y =? 68) then Some RGBA4
      else if (x =? 21) && (y =? 85) then Some RGBA5 else if (x =? 136) && (y =? 136) then Some RGBA8 else if (x =? 128) && (y =? 128) then Some GRAYA
      else None
  | _ => None
  end.
(** texpresso [Format] and pax.rs:60-69: [None] is [unimplemented!()]. *)
Inductive format := Bc1 | Bc2 | Bc3.
Definition format_of (p : pax) : option format := match p with DXT1 => Some Bc1 | DXT3 => Some Bc2 | DXT5 => Some Bc3 | _ => None end.

(** mipmap.rs:7-12; paa.rs:16-20. *)
Record mipmap := Mipmap { m_width : N; m_height : N; m_data : bytes; m_format : format }.
Record paa := Paa { p_format : pax; p_taggs : list (bytes * bytes); p_maps : list mipmap }.
(** mipmap.rs:33-46 [is_compressed], [width]. *)
Definition is_compressed (m : mipmap) : bool := negb (m_width m mod 32768 =? m_width m).
Definition width (m : mipmap) : N := if is_compressed m then m_width m - 32768 else m_width m.

(** What a call can end with. *)
Inductive outcome (A : Type) := Done (a : A) | Fail | Panic.
Arguments Done {A} a. Arguments Fail {A}. Arguments Panic {A}.

Fixpoint same_bytes (a b : bytes) : bool :=
  match a, b with
  | [], [] => true
  | x :: a, y :: b => (x =? y) && same_bytes a b
  | _, _ => false
  end.
(** A map from names to contents; inserting replaces. *)
Fixpoint insert (m : list (bytes * bytes)) (k v : bytes) : list (bytes * bytes) :=
  match m with
  | [] => [(k, v)]
  | (k', v') :: m => if same_bytes k k' then (k', v) :: m else (k', v') :: insert m k v
  end.
Fixpoint lookup (m : list (bytes * bytes)) (k : bytes) : option bytes :=
  match m with [] => None | (k', v) :: m => if same_bytes k k' then Some v else lookup m k end.

(** mipmap.rs:19-31 [MipMap::from_stream]. *)
Definition read_mipmap (f : format) (l : bytes) : option mipmap :=
  match read_u16 l with
  | Some (w, l) => match read_u16 l with
    | Some (h, l) => match read_u24 l with
      | Some (n, l) => match take_exact (N.to_nat n) l with Some (d, _) => Some (Mipmap w h d f) | None => None end
      | None => None end
    | None => None end
  | None => None
  end.
(** paa.rs:57-82: the taggs; each round reads at least twelve bytes. *)
Fixpoint read_taggs (fuel : nat) (m : list (bytes * bytes)) (l : bytes) : option (list (bytes * bytes)) :=
  match fuel with
  | O => None
  | S fuel =>
      match take_exact 4 l with
      | None => None
      | Some (sig, l) =>
          if same_bytes sig (bs "GGAT") then
            match take_exact 4 l with
            | None => None
            | Some (name, l) =>
                if utf8_valid name then
                  match read_u32 l with
                  | None => None
                  | Some (n, l) => match take_exact (N.to_nat n) l with
                    | None => None
                    | Some (b, l) => read_taggs fuel (insert m name b) l
                    end
                  end
                else None
            end
          else Some m
      end
  end.
(** paa.rs:84-97: the offsets of the [SFFO] tagg; a seek is to that byte of the file. *)
Fixpoint read_maps (all : bytes) (p : pax) (n : nat) (offs : bytes) : outcome (list mipmap) :=
  match n with
  | O => Done []
  | S n =>
      match read_u32 offs with
      | None => Fail
      | Some (seek, offs) =>
          if seek =? 0 then read_maps all p n offs
          else match format_of p with
               | None => Panic
               | Some f => match read_mipmap f (skipn (N.to_nat seek) all) with
                   | None => Fail
                   | Some m => match read_maps all p n offs with Done ms => Done (m :: ms) | x => x end
                   end
               end
      end
  end.
(** paa.rs:54-106 [Paa::read]. *)
Definition read (all : bytes) : outcome paa :=
  match take_exact 2 all with
  | None => Fail
  | Some (b, l) =>
      match pax_of_bytes b with
      | None => Fail
      | Some p =>
          match read_taggs (S (length l)) [] l with
          | None => Fail
          | Some m =>
              match lookup m (bs "SFFO") with
              | None => Done (Paa p m [])
              | Some offs => match read_maps all p (length offs / 4) offs with
                  | Done ms => Done (Paa p m ms)
                  | Fail => Fail
                  | Panic => Panic
                  end
              end
          end
      end
  end.

(** image [RgbaImage]: width, height and the pixels row by row. *)
Record image := Image { i_width : N; i_height : N; pixels : list (N * N * N * N) }.
(** texpresso [Format::compressed_size] of [Bc3]: 16 bytes for each block of four by four. *)
Definition compressed_size (w h : N) : N := ((w + 3) / 4) * ((h + 3) / 4) * 16.
(** paa.rs:119-134: sums of [u32], wrapping (overflow checks are off in the release profile; with them on it panics). *)
Definition sum_step (acc p : N * N * N * N) : N * N * N * N :=
  let '(a, b, c, d) := acc in let '(w, x, y, z) := p in
  ((a + w) mod 4294967296, (b + x) mod 4294967296, (c + y) mod 4294967296, (d + z) mod 4294967296).
Definition max_step (acc p : N * N * N * N) : N * N * N * N :=
  let '(a, b, c, d) := acc in let '(w, x, y, z) := p in (N.max a w, N.max b x, N.max c y, N.max d z).

Section Write.
  Context (compress : image -> bytes).
  (** paa.rs:112-182 [Paa::write]. Dividing by zero panics, and so does byteorder's [write_u24] of 2^24 or more. *)
  Definition write (i : image) : outcome bytes :=
    let area := (i_width i * i_height i) mod 4294967296 in
    if area =? 0 then Panic
    else
      let '(r, g, b, a) := fold_left sum_step (pixels i) (0, 0, 0, 0) in
      let '(r', g', b', a') := fold_left max_step (pixels i) (0, 0, 0, 0) in
      let size := compressed_size (i_width i) (i_height i) in
      if size mod 4294967296 <? 16777216 then
        Done (pax_bytes DXT5 ++
              bs "GGATAVGC" ++ u32_bytes 4 ++ [(r / area) mod 256; (g / area) mod 256; (b / area) mod 256; (a / area) mod 256] ++
              bs "GGATCXAM" ++ u32_bytes 4 ++ [r'; g'; b'; a'] ++
              bs "GGATSFFO" ++ u32_bytes 64 ++ u32_bytes 110 ++ concat (repeat (u32_bytes 0) 15) ++
              u16_bytes (i_width i mod 65536) ++ u16_bytes (i_height i mod 65536) ++ u24_bytes (size mod 4294967296) ++ compress i)
      else Panic.
End Write.
