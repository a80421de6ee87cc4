(** Model of libs/p3d/src: lib.rs, lod.rs, face.rs, point.rs, vertex.rs. A stream is the list of the bytes still to be
    read; [None] is any [Err] (which one is not modelled). An [f32] is its 32 bits: byteorder moves the bits unchanged.
    [Vec::with_capacity] with the counts of the file is left out: an allocation that fails aborts. *)
From Coq Require Import String.
From Verif Require Import Base.Tactics Base.Bytes Base.Ascii Io.Model.
Local Open Scope N_scope.
Local Open Scope list_scope.

Notation "'let*' ( a , l ) := e 'in' f" := (match e with Some (a, l) => f | None => None end) (at level 200, a name, l name, e at level 100, f at level 200).

(** vertex.rs:7-12, point.rs:7-11, face.rs:8-14, lod.rs:9-18, lib.rs:29-33. *)
Record vertex := Vertex { point_index : N; normal_index : N; uv0 : N; uv1 : N }.
Record point := Point { x : N; y : N; z : N; point_flags : N }.
Record face := Face { vertices : list vertex; face_flags : N; texture : bytes; material : bytes }.
Record lod := Lod { version_major : N; version_minor : N; resolution : N; points : list point; face_normals : list (N * N * N);
  faces : list face; taggs : list (bytes * bytes) }.
Record p3d := P3d { version : N; lods : list lod }.

Fixpoint same_bytes (a b : bytes) : bool :=
  match a, b with
  | [], [] => true
  | x :: a, y :: b => (x =? y) && same_bytes a b
  | _, _ => false
  end.
(** A loop that reads [n] of a thing. *)
Fixpoint read_many {A} (n : nat) (read : bytes -> option (A * bytes)) (l : bytes) : option (list A * bytes) :=
  match n with
  | O => Some ([], l)
  | S n => let* (a, l) := read l in let* (r, l) := read_many n read l in Some (a :: r, l)
  end.
(** [for x in xs { x.write(output)? }]. *)
Fixpoint write_many {A} (write : A -> option bytes) (l : list A) : option bytes :=
  match l with
  | [] => Some []
  | a :: r => match write a, write_many write r with Some x, Some y => Some (x ++ y) | _, _ => None end
  end.
(** [u32::try_from(len)]. *)
Definition count {A} (l : list A) : option N := let n := N.of_nat (length l) in if n <? 4294967296 then Some n else None.
(** [let mut b = [0; n]; input.read_exact(&mut b)?; if &b != expected]. *)
Definition expect (m : bytes) (l : bytes) : option (unit * bytes) :=
  match take_exact (length m) l with Some (b, l) => if same_bytes b m then Some (tt, l) else None | None => None end.

(** vertex.rs:28-37, 43-49. *)
Definition read_vertex (l : bytes) : option (vertex * bytes) :=
  let* (p, l) := read_u32 l in let* (n, l) := read_u32 l in let* (a, l) := read_u32 l in let* (b, l) := read_u32 l in Some (Vertex p n a b, l).
Definition write_vertex (v : vertex) : option bytes :=
  Some (u32_bytes (point_index v) ++ u32_bytes (normal_index v) ++ u32_bytes (uv0 v) ++ u32_bytes (uv1 v)).
(** point.rs:26-35, 41-47. *)
Definition read_point (l : bytes) : option (point * bytes) :=
  let* (a, l) := read_u32 l in let* (b, l) := read_u32 l in let* (c, l) := read_u32 l in let* (f, l) := read_u32 l in Some (Point a b c f, l).
Definition write_point (p : point) : option bytes :=
  Some (u32_bytes (x p) ++ u32_bytes (y p) ++ u32_bytes (z p) ++ u32_bytes (point_flags p)).
(** lod.rs:53-59, 119-123. *)
Definition read_normal (l : bytes) : option (N * N * N * bytes) :=
  let* (a, l) := read_u32 l in let* (b, l) := read_u32 l in let* (c, l) := read_u32 l in Some (a, b, c, l).
Definition write_normal (n : N * N * N) : option bytes := let '(a, b, c) := n in Some (u32_bytes a ++ u32_bytes b ++ u32_bytes c).
(** face.rs:31-57. *)
Definition read_face (l : bytes) : option (face * bytes) :=
  let* (n, l) := read_u32 l in
  if ((n =? 3) || (n =? 4))%bool then
    let* (vs, l) := read_many (N.to_nat n) read_vertex l in
    let* (_u, l) := (if n =? 3 then read_vertex l else Some (Vertex 0 0 0 0, l)) in
    let* (fl, l) := read_u32 l in
    let (t, l) := read_cstring l in let (m, l) := read_cstring l in Some (Face vs fl t m, l)
  else None.
(** face.rs:63-82. *)
Definition write_face (f : face) : option bytes :=
  match count (vertices f) with
  | Some n =>
      if ((n =? 3) || (n =? 4))%bool then
        match write_many write_vertex (vertices f), (if n =? 3 then write_vertex (Vertex 0 0 0 0) else Some []) with
        | Some vs, Some extra => Some (u32_bytes n ++ vs ++ extra ++ u32_bytes (face_flags f) ++ write_cstring (texture f) ++ write_cstring (material f))
        | _, _ => None
        end
      else None
  | None => None
  end.

(** indexmap [insert]: a known key keeps its place and gets the new value. *)
Fixpoint insert (m : list (bytes * bytes)) (k v : bytes) : list (bytes * bytes) :=
  match m with
  | [] => [(k, v)]
  | (k', v') :: m => if same_bytes k k' then (k', v) :: m else (k', v') :: insert m k v
  end.
Definition end_of_file : bytes := bs "#EndOfFile#".
(** lod.rs:74-87. [input.bytes().next()] takes one byte if there is one. Each round reads a size, so a round per byte of
    input suffices. *)
Definition skip (n : nat) (l : bytes) : bytes := skipn n l.
Fixpoint read_taggs (fuel : nat) (m : list (bytes * bytes)) (l : bytes) : option (list (bytes * bytes) * bytes) :=
  match fuel with
  | O => None
  | S fuel =>
      let l := skip 1 l in
      let (name, l) := read_cstring l in
      let* (size, l) := read_u32 l in
      let* (b, l) := take_exact (N.to_nat size) l in
      if same_bytes name end_of_file then Some (m, l) else read_taggs fuel (insert m name b) l
  end.
Definition write_tagg (t : bytes * bytes) : option bytes :=
  match count (snd t) with Some n => Some ([1] ++ write_cstring (fst t) ++ u32_bytes n ++ snd t) | None => None end.

(** lod.rs:25-99. *)
Definition read_lod (l : bytes) : option (lod * bytes) :=
  let* (_u, l) := expect (bs "P3DM") l in
  let* (major, l) := read_u32 l in let* (minor, l) := read_u32 l in
  let* (np, l) := read_u32 l in let* (nn, l) := read_u32 l in let* (nf, l) := read_u32 l in
  let l := skip 4 l in
  let* (ps, l) := read_many (N.to_nat np) read_point l in
  let* (ns, l) := read_many (N.to_nat nn) read_normal l in
  let* (fs, l) := read_many (N.to_nat nf) read_face l in
  let* (_v, l) := expect (bs "TAGG") l in
  let* (ts, l) := read_taggs (S (length l)) [] l in
  let* (res, l) := read_u32 l in
  Some (Lod major minor res ps ns fs ts, l).
(** lod.rs:105-151. *)
Definition write_lod (d : lod) : option bytes :=
  match count (points d), count (face_normals d), count (faces d) with
  | Some np, Some nn, Some nf =>
      match write_many write_point (points d), write_many write_normal (face_normals d), write_many write_face (faces d), write_many write_tagg (taggs d) with
      | Some ps, Some ns, Some fs, Some ts =>
          Some (bs "P3DM" ++ u32_bytes (version_major d) ++ u32_bytes (version_minor d) ++ u32_bytes np ++ u32_bytes nn ++ u32_bytes nf ++ [0; 0; 0; 0]
                ++ ps ++ ns ++ fs ++ bs "TAGG" ++ ts ++ write_cstring (1 :: end_of_file) ++ u32_bytes 0 ++ u32_bytes (resolution d))
      | _, _, _, _ => None
      end
  | _, _, _ => None
  end.
(** lib.rs:40-60, 67-81. *)
Definition read (l : bytes) : option p3d :=
  let* (_u, l) := expect (bs "MLOD") l in
  let* (v, l) := read_u32 l in
  let* (n, l) := read_u32 l in
  let* (ls, l) := read_many (N.to_nat n) read_lod l in
  Some (P3d v ls).
Definition write (m : p3d) : option bytes :=
  match count (lods m) with
  | Some n => match write_many write_lod (lods m) with
              | Some ls => Some (bs "MLOD" ++ u32_bytes (version m) ++ u32_bytes n ++ ls)
              | None => None
              end
  | None => None
  end.
