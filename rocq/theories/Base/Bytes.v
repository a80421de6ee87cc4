(** Byte strings, fixed-width little-endian integers and readers over them.
    These model the parts of Rust's standard library and of the [byteorder] crate
    the code base uses: [Read::read_exact], [read_u16/u24/u32/u64::<LittleEndian>],
    [write_u..::<LittleEndian>]. A reader is a function from the remaining input to
    the value read and the rest; [None] stands for the io error [UnexpectedEof]. *)
From Verif Require Import Base.Tactics.
Local Open Scope N_scope.

Notation byte := N (only parsing).
Notation bytes := (list N).

(** Every element fits in a [u8]. *)
Definition is_bytes (l : bytes) : Prop := Forall (fun b => b < 256) l.

Definition is_bytesb (l : bytes) : bool := forallb (fun b => b <? 256) l.

Definition blen (l : bytes) : N := N.of_nat (length l).

(** [write_uK::<LittleEndian>]: the K/8 low bytes, least significant first. *)
Fixpoint le_bytes (k : nat) (v : N) : bytes :=
  match k with
  | O => []
  | S k' => (v mod 256) :: le_bytes k' (v / 256)
  end.

(** The value of a little-endian byte string. *)
Fixpoint le_val (l : bytes) : N :=
  match l with
  | [] => 0
  | b :: r => b + 256 * le_val r
  end.

(** [Read::read_exact] on [k] bytes. *)
Fixpoint take_exact (k : nat) (l : bytes) : option (bytes * bytes) :=
  match k, l with
  | O, _ => Some ([], l)
  | S k', b :: r =>
      match take_exact k' r with
      | Some (x, rest) => Some (b :: x, rest)
      | None => None
      end
  | S _, [] => None
  end.

(** [read_uK::<LittleEndian>] with K = 8k. *)
Definition read_le (k : nat) (l : bytes) : option (N * bytes) :=
  match take_exact k l with
  | Some (x, rest) => Some (le_val x, rest)
  | None => None
  end.

Definition u8_bytes (v : N) : bytes := le_bytes 1 v.
Definition u16_bytes (v : N) : bytes := le_bytes 2 v.
Definition u24_bytes (v : N) : bytes := le_bytes 3 v.
Definition u32_bytes (v : N) : bytes := le_bytes 4 v.
Definition u64_bytes (v : N) : bytes := le_bytes 8 v.
Definition read_u8 : bytes -> option (N * bytes) := read_le 1.
Definition read_u16 : bytes -> option (N * bytes) := read_le 2.
Definition read_u24 : bytes -> option (N * bytes) := read_le 3.
Definition read_u32 : bytes -> option (N * bytes) := read_le 4.
Definition read_u64 : bytes -> option (N * bytes) := read_le 8.

(** ** Lemmas *)

Lemma is_bytes_nil : is_bytes [].
Proof. constructor. Qed.

Lemma is_bytes_cons b l : is_bytes (b :: l) <-> b < 256 /\ is_bytes l.
Proof. unfold is_bytes. split; [intro H; inversion H; auto | intros []; constructor; auto]. Qed.

Lemma is_bytes_app a b : is_bytes (a ++ b) <-> is_bytes a /\ is_bytes b.
Proof. apply Forall_app. Qed.

Lemma is_bytesb_spec l : is_bytesb l = true <-> is_bytes l.
Proof.
  unfold is_bytesb, is_bytes. rewrite forallb_forall, Forall_forall.
  split; intros H x Hx; specialize (H x Hx); now apply N.ltb_lt.
Qed.

Lemma blen_app a b : blen (a ++ b) = blen a + blen b.
Proof. unfold blen. rewrite app_length. lia. Qed.

Lemma blen_cons a b : blen (a :: b) = 1 + blen b.
Proof. unfold blen. cbn [length]. lia. Qed.

Lemma blen_nil : blen [] = 0.
Proof. reflexivity. Qed.

Lemma le_bytes_length k v : length (le_bytes k v) = k.
Proof. revert v; induction k; intros; cbn [le_bytes length]; auto. Qed.

Lemma le_bytes_is_bytes k v : is_bytes (le_bytes k v).
Proof.
  revert v; induction k; intros; cbn [le_bytes]; [constructor|].
  apply is_bytes_cons; split; [|apply IHk]. apply N.mod_lt. lia.
Qed.

Lemma le_val_bytes k v : v < 256 ^ N.of_nat k -> le_val (le_bytes k v) = v.
Proof.
  revert v; induction k; intros v Hv; cbn [le_bytes le_val].
  - cbn in Hv. lia.
  - rewrite IHk.
    + pose proof (N.div_mod v 256). lia.
    + apply N.div_lt_upper_bound; [lia|].
      rewrite <- N.pow_succ_r by lia. replace (N.succ (N.of_nat k)) with (N.of_nat (S k)) by lia. exact Hv.
Qed.

Lemma le_bytes_mod k v : le_bytes k (v mod 256 ^ N.of_nat k) = le_bytes k v.
Proof.
  revert v; induction k; intros v; cbn [le_bytes]; [reflexivity|].
  replace (N.of_nat (S k)) with (N.succ (N.of_nat k)) by lia.
  rewrite N.pow_succ_r by lia.
  assert (Hp : 256 ^ N.of_nat k <> 0) by (apply N.pow_nonzero; lia).
  rewrite N.mod_mul_r by lia.
  f_equal.
  - rewrite N.mul_comm, N.mod_add, N.mod_mod by lia. reflexivity.
  - rewrite N.mul_comm, N.div_add, N.div_small by (try apply N.mod_lt; lia).
    cbn [N.add]. apply IHk.
Qed.

Lemma le_val_bytes_mod k v : le_val (le_bytes k v) = v mod 256 ^ N.of_nat k.
Proof.
  rewrite <- le_bytes_mod. apply le_val_bytes. apply N.mod_lt. apply N.pow_nonzero. lia.
Qed.

Lemma le_val_lt l : is_bytes l -> le_val l < 256 ^ N.of_nat (length l).
Proof.
  induction l as [|b r IH]; intro H; cbn [le_val length].
  - cbn. lia.
  - apply is_bytes_cons in H as [Hb Hr]. specialize (IH Hr).
    replace (N.of_nat (S (length r))) with (N.succ (N.of_nat (length r))) by lia.
    rewrite N.pow_succ_r by lia. nia.
Qed.

Lemma le_bytes_val l : is_bytes l -> le_bytes (length l) (le_val l) = l.
Proof.
  induction l as [|b r IH]; intro H; cbn [length le_bytes le_val]; [reflexivity|].
  apply is_bytes_cons in H as [Hb Hr].
  f_equal.
  - rewrite N.mul_comm, N.mod_add by lia. apply N.mod_small; lia.
  - rewrite N.mul_comm, N.div_add by lia. rewrite N.div_small by lia. cbn [N.add]. auto.
Qed.

Lemma le_val_app a b : le_val (a ++ b) = le_val a + 256 ^ blen a * le_val b.
Proof.
  induction a as [|x a IH]; cbn [app le_val].
  - rewrite blen_nil. cbn. destruct (le_val b); reflexivity.
  - rewrite IH, blen_cons, N.pow_add_r. change (256 ^ 1) with 256. nia.
Qed.

Lemma take_exact_app x rest : take_exact (length x) (x ++ rest) = Some (x, rest).
Proof. induction x as [|b x IH]; cbn; [reflexivity|]. now rewrite IH. Qed.

Lemma take_exact_app' k x rest : length x = k -> take_exact k (x ++ rest) = Some (x, rest).
Proof. intros <-. apply take_exact_app. Qed.

Lemma take_exact_inv k l x rest :
  take_exact k l = Some (x, rest) -> l = x ++ rest /\ length x = k.
Proof.
  revert l x rest; induction k; intros l x rest H.
  - cbn in H. destruct l; injection H as <- <-; auto.
  - destruct l as [|b r]; [discriminate|]. cbn in H.
    destruct (take_exact k r) as [[x' rest']|] eqn:E; [|discriminate].
    injection H as <- <-. apply IHk in E as [-> <-]. auto.
Qed.

Lemma take_exact_none k l : take_exact k l = None <-> (length l < k)%nat.
Proof.
  revert l; induction k; intros l; cbn.
  - destruct l; split; intro H; try discriminate; lia.
  - destruct l as [|b r]; cbn; [split; [lia|auto]|].
    specialize (IHk r). destruct (take_exact k r) as [[? ?]|]; split; intro H; try discriminate; auto.
    + assert (length r < k)%nat as H2 by lia. apply IHk in H2. discriminate.
    + assert (length r < k)%nat by (apply IHk; auto). lia.
Qed.

Lemma read_le_app k v rest :
  v < 256 ^ N.of_nat k -> read_le k (le_bytes k v ++ rest) = Some (v, rest).
Proof.
  intro H. unfold read_le. rewrite take_exact_app' by apply le_bytes_length.
  now rewrite le_val_bytes.
Qed.

Lemma read_le_inv k l v rest :
  read_le k l = Some (v, rest) -> is_bytes l -> l = le_bytes k v ++ rest /\ v < 256 ^ N.of_nat k.
Proof.
  unfold read_le. destruct (take_exact k l) as [[x r]|] eqn:E; [|discriminate].
  intros H Hb. injection H as <- <-. apply take_exact_inv in E as [-> <-].
  apply is_bytes_app in Hb as [Hx _]. rewrite le_bytes_val by auto. split; [auto|].
  now apply le_val_lt.
Qed.

Lemma read_u8_app v rest : v < 256 -> read_u8 (u8_bytes v ++ rest) = Some (v, rest).
Proof. intro. now apply read_le_app. Qed.
Lemma read_u8_cons v rest : read_u8 (v :: rest) = Some (v, rest).
Proof. unfold read_u8, read_le. cbn. destruct rest; rewrite ?N.add_0_r; reflexivity. Qed.
Lemma read_u16_app v rest : v < 65536 -> read_u16 (u16_bytes v ++ rest) = Some (v, rest).
Proof. intro. now apply read_le_app. Qed.
Lemma read_u24_app v rest : v < 16777216 -> read_u24 (u24_bytes v ++ rest) = Some (v, rest).
Proof. intro. now apply read_le_app. Qed.
Lemma read_u32_app v rest : v < 4294967296 -> read_u32 (u32_bytes v ++ rest) = Some (v, rest).
Proof. intro. now apply read_le_app. Qed.
Lemma read_u64_app v rest : v < 18446744073709551616 -> read_u64 (u64_bytes v ++ rest) = Some (v, rest).
Proof. intro. now apply read_le_app. Qed.

Lemma u8_bytes_small v : v < 256 -> u8_bytes v = [v].
Proof. intro H. unfold u8_bytes. cbn [le_bytes]. now rewrite N.mod_small. Qed.
