(** The published raP layout as a grammar over bytes, and the tree it describes. Independent of the
    writer: nothing here mentions the rapify functions. *)
From Verif Require Import Base.Tactics Base.Bytes Io.Spec.
Local Open Scope N_scope.

(** What a config file says, as a reader of the binary form sees it. *)
Inductive rvalue :=
| RStr (s : bytes)
| RFloat (bits : N)
| RInt (v : Z)
| RInt64 (v : Z)
| RArray (l : list rvalue).

Inductive rentry :=
| RClass (name : bytes) (parent : option bytes) (es : list rentry)
| RValue (name : bytes) (v : rvalue)       (* name = v; *)
| RExpr (name : bytes) (s : bytes)         (* name = expression; *)
| RArr (name : bytes) (expand : bool) (l : list rvalue)   (* name[] = {…}; or name[] += {…}; *)
| RExtern (name : bytes)                   (* class name; *)
| RDelete (name : bytes).                  (* delete name; *)

(** Two's complement on [bits] bits. *)
Definition int_code (bits : Z) (v : Z) (w : N) : Prop :=
  (- 2 ^ (bits - 1) <= v < 2 ^ (bits - 1))%Z /\ Z.of_N w = (v mod 2 ^ bits)%Z.

(** A zero-terminated string. *)
Definition cstr (s : bytes) (inp rest : bytes) : Prop := no_nul s /\ inp = s ++ 0 :: rest.
(** A 32-bit little-endian word. *)
Definition word (w : N) (inp rest : bytes) : Prop := w < 2 ^ 32 /\ inp = le_bytes 4 w ++ rest.
Definition dword (w : N) (inp rest : bytes) : Prop := w < 2 ^ 64 /\ inp = le_bytes 8 w ++ rest.
(** A length, as a LEB128 number. *)
Definition count (n : nat) (inp rest : bytes) : Prop := exists b, leb128 b (N.of_nat n) /\ inp = b ++ rest.

(** [scalar code v inp rest]: [inp] starts with the payload of value [v] of type [code]. *)
Inductive scalar : N -> rvalue -> bytes -> bytes -> Prop :=
| sc_str s inp rest : cstr s inp rest -> scalar 0 (RStr s) inp rest
| sc_float w inp rest : word w inp rest -> scalar 1 (RFloat w) inp rest
| sc_int v w inp rest : int_code 32 v w -> word w inp rest -> scalar 2 (RInt v) inp rest
| sc_int64 v w inp rest : int_code 64 v w -> dword w inp rest -> scalar 6 (RInt64 v) inp rest.

(** An array: element count, then each element's type code and payload. Arrays nest with code 3. *)
Inductive array : list rvalue -> bytes -> bytes -> Prop :=
| ar l inp inp1 rest : count (length l) inp inp1 -> elems l inp1 rest -> array l inp rest
with elems : list rvalue -> bytes -> bytes -> Prop :=
| el_nil inp : elems [] inp inp
| el_scalar code v l inp inp1 rest :
    scalar code v inp inp1 -> elems l inp1 rest -> elems (v :: l) (code :: inp) rest
| el_array a l inp inp1 rest :
    array a inp inp1 -> elems l inp1 rest -> elems (RArray a :: l) (3 :: inp) rest.

(** [class f tight off parent es fin]: in file [f], the class body at offset [off] has this parent and
    these entries, and stores [fin] as its end. A plain reader ([tight = false]) follows whatever class
    offsets are stored. A [tight] file moreover has its class bodies laid out back to back: each
    nested body starts where the previous one ends, the first just after the parent's own entries, and
    the stored end of a class is the end of its last nested body.
    [entries f tight es inp cur rest cur']: [es] are read from [inp] up to [rest]; [cur] is where the
    next nested body is expected, [cur'] where the last one ended. *)
Definition parent_code (parent : option bytes) (s : bytes) : Prop :=
  match parent with None => s = [] | Some p => p = s /\ s <> [] end.

Inductive class (f : bytes) (tight : bool) : N -> option bytes -> list rentry -> N -> Prop :=
| cl off parent s es fin inp1 inp2 inp3 rest cur :
    parent_code parent s ->
    off <= blen f ->
    cstr s (skipn (N.to_nat off) f) inp1 ->
    count (length es) inp1 inp2 ->
    entries f tight es inp2 (blen f - blen rest) inp3 cur ->
    word fin inp3 rest ->
    (tight = true -> fin = cur) ->
    class f tight off parent es fin
with entries (f : bytes) (tight : bool) : list rentry -> bytes -> N -> bytes -> N -> Prop :=
| en_nil inp cur : entries f tight [] inp cur inp cur
| en_class name parent es off fin es' inp inp1 inp2 rest cur cur' :
    cstr name inp inp1 -> word off inp1 inp2 ->
    class f tight off parent es fin ->
    (tight = true -> off = cur) ->
    entries f tight es' inp2 fin rest cur' ->
    entries f tight (RClass name parent es :: es') (0 :: inp) cur rest cur'
| en_value code name v es' inp inp1 inp2 rest cur cur' :
    cstr name inp inp1 -> scalar code v inp1 inp2 ->
    entries f tight es' inp2 cur rest cur' ->
    entries f tight (RValue name v :: es') (1 :: code :: inp) cur rest cur'
| en_expr name s es' inp inp1 inp2 rest cur cur' :
    cstr name inp inp1 -> cstr s inp1 inp2 ->
    entries f tight es' inp2 cur rest cur' ->
    entries f tight (RExpr name s :: es') (1 :: 4 :: inp) cur rest cur'
| en_array name l es' inp inp1 inp2 rest cur cur' :
    cstr name inp inp1 -> array l inp1 inp2 ->
    entries f tight es' inp2 cur rest cur' ->
    entries f tight (RArr name false l :: es') (2 :: inp) cur rest cur'
| en_array_add name l es' inp inp0 inp1 inp2 rest cur cur' :
    word 1 inp inp0 -> cstr name inp0 inp1 -> array l inp1 inp2 ->
    entries f tight es' inp2 cur rest cur' ->
    entries f tight (RArr name true l :: es') (5 :: inp) cur rest cur'
| en_extern name es' inp inp1 rest cur cur' :
    cstr name inp inp1 -> entries f tight es' inp1 cur rest cur' ->
    entries f tight (RExtern name :: es') (3 :: inp) cur rest cur'
| en_delete name es' inp inp1 rest cur cur' :
    cstr name inp inp1 -> entries f tight es' inp1 cur rest cur' ->
    entries f tight (RDelete name :: es') (4 :: inp) cur rest cur'.

(** The whole file: signature "\0raP", the words 0 and 8, the offset of the enum table, the root class
    at offset 16, and an enum table with no entries as the last four bytes. *)
Inductive rap_file (tight : bool) (f : bytes) (es : list rentry) : Prop :=
| rf inp1 inp2 inp3 inp4 enums fin :
    f = 0 :: 114 :: 97 :: 80 :: inp1 ->
    word 0 inp1 inp2 -> word 8 inp2 inp3 -> word enums inp3 inp4 ->
    word 0 (skipn (N.to_nat enums) f) [] ->
    class f tight 16 None es fin ->
    (tight = true -> fin = enums) ->
    rap_file tight f es.
