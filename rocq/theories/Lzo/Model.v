(** Model of libs/lzo/src: the LZO1X-1 compressor and the safe decompressor.
    The code works on raw pointers. Here a pointer into the input is a position, the output written so far is
    a list, and every read outside the input, read of an output byte not yet written, or write at or beyond
    the end of the output buffer is the explicit outcome [Fault]. Sizes are unbounded: [usize] never wraps because
    every size is bounded by the length of a buffer, and the address-space wrap test of compress.rs:438
    is false except for its zero case. *)
From Verif Require Import Base.Tactics Base.Bytes.
Local Open Scope N_scope.

Inductive run (A : Type) := Val (a : A) | Fault | NoFuel.
Arguments Val {A} a.
Arguments Fault {A}.
Arguments NoFuel {A}.
Definition rbind {A B} (r : run A) (k : A -> run B) : run B :=
  match r with Val a => k a | Fault => Fault | NoFuel => NoFuel end.
Notation "x <- r ;; k" := (rbind r (fun x => k)) (at level 61, r at next level, right associativity).

(** lib.rs:10-12 [worst_compress]. *)
Definition worst_compress (size : N) : N := size + size / 16 + 64 + 3.

(** ** compress.rs *)
Section Compress.
  (** The input buffer, and the capacity of the output buffer. *)
  Context (inp : bytes) (cap : N).

  (** One input byte, and [n] input bytes. *)
  Definition rd (i : N) : run N := match nth_error inp (N.to_nat i) with Some b => Val b | None => Fault end.
  Definition slice (i n : N) : bytes := firstn (N.to_nat n) (skipn (N.to_nat i) inp).
  Definition rd_slice (i n : N) : run bytes := if i + n <=? blen inp then Val (slice i n) else Fault.
  (** compress.rs:19-25 [get_unaligned_le32]. *)
  Definition rd32 (i : N) : run N := l <- rd_slice i 4 ;; Val (le_val l).

  (** The output is kept in reverse: its head is the byte before [op]. *)
  Definition put (rout : bytes) (l : bytes) : run bytes :=
    if blen rout + blen l <=? cap then Val (rev l ++ rout) else Fault.
  (** A write of [n] bytes of which only the first ones are kept ([op] advances by less than [n]). *)
  Definition room (rout : bytes) (n : N) : run unit := if blen rout + n <=? cap then Val tt else Fault.

  (** compress.rs:162-184, 326-346, 358-378, 470-492: lengths as a run of zeros, 255 each, and a last byte. *)
  Fixpoint len_run (fuel : nat) (tt : N) : run bytes :=
    match fuel with
    | O => NoFuel
    | S f => if tt <=? 255 then Val [tt] else l <- len_run f (tt - 255) ;; Val (0 :: l)
    end.
  Definition len_bytes (tt : N) : run bytes := len_run (S (N.to_nat tt)) tt.

  (** compress.rs:101-105, 461-463: [op[-2] |= t]. *)
  Definition or_back (rout : bytes) (t : N) : run bytes :=
    match rout with
    | y :: x :: r => Val (y :: N.lor x t mod 256 :: r)
    | _ => Fault
    end.

  (** compress.rs:96-247: emit the [t] literals that start at [ii]. *)
  Definition literals (rout : bytes) (ii t : N) : run bytes :=
    if t =? 0 then Val rout
    else if t <=? 3 then
      rout <- or_back rout t ;;
      _ <- rd_slice ii 4 ;;
      _ <- room rout 4 ;;
      put rout (slice ii t)
    else if t <=? 16 then
      rout <- put rout [t - 3] ;;
      _ <- rd_slice ii 16 ;;
      _ <- room rout 16 ;;
      put rout (slice ii t)
    else
      rout <- (if t <=? 18 then put rout [t - 3] else l <- len_bytes (t - 18) ;; put rout (0 :: l)) ;;
      l <- rd_slice ii t ;;
      put rout l.

  (** compress.rs:248-301: the length of the match of the text at [ip] with the text at [m_pos], at least 4.
      The code unrolls the loop eight times and compares [ip + m_len] with [ip_end] once per turn, that is
      at m_len = 12, 20, ... *)
  Fixpoint extend (fuel : nat) (ip_end ip m_pos m_len : N) : run N :=
    match fuel with
    | O => NoFuel
    | S f =>
        if (4 <? m_len) && (m_len mod 8 =? 4) && (ip_end <=? ip + m_len) then Val m_len
        else
          a <- rd (ip + m_len) ;;
          b <- rd (m_pos + m_len) ;;
          if a =? b then extend f ip_end ip m_pos (m_len + 1) else Val m_len
    end.

  (** compress.rs:302-404: the code of a match. *)
  Definition match_code (m_len m_off : N) : run bytes :=
    if (m_len <=? 8) && (m_off <=? 0x800) then
      let m := m_off - 1 in
      Val [N.lor (N.shiftl (m_len - 1) 5) (N.shiftl (N.land m 7) 2) mod 256; N.shiftr m 3 mod 256]
    else
      let m := if m_off <=? 0x4000 then m_off - 1 else m_off - 0x4000 in
      h <- (if m_off <=? 0x4000 then
              if m_len <=? 33 then Val [N.lor 32 (m_len - 2) mod 256]
              else l <- len_bytes (m_len - 33) ;; Val (32 :: l)
            else
              let hi := N.lor 16 (N.land (N.shiftr m 11) 8) in
              if m_len <=? 9 then Val [N.lor hi (m_len - 2) mod 256]
              else l <- len_bytes (m_len - 9) ;; Val (hi mod 256 :: l)) ;;
      Val (h ++ [N.shiftl m 2 mod 256; N.shiftr m 6 mod 256]).

  (** compress.rs:87-88: the dictionary index of four bytes. *)
  Definition hash (dv : N) : N := N.land (N.shiftr ((dv * 0x1824429d) mod 2 ^ 32) 19) 8191.

  (** compress.rs:82-406: the main loop from the test [ip >= ip_end] on. The dictionary holds positions
      relative to the start [base] of the block, as u16. The result is the output and the start of the literals not
      yet emitted. *)
  Fixpoint scan (fuel : nat) (base ip_end : N) (dict : N -> N) (rout : bytes) (ip ii ti : N) : run (bytes * N) :=
    match fuel with
    | O => NoFuel
    | S f =>
        if ip_end <=? ip then Val (rout, ii - ti)
        else
          dv <- rd32 ip ;;
          let h := hash dv in
          let m_pos := base + dict h in
          let dict := fun k => if k =? h then (ip - base) mod 65536 else dict k in
          mv <- rd32 m_pos ;;
          if negb (dv =? mv) then scan f base ip_end dict rout (ip + (1 + N.shiftr (ip - ii) 5)) ii ti
          else
            let ii := ii - ti in
            rout <- literals rout ii (ip - ii) ;;
            m_len <- extend (S (length inp)) ip_end ip m_pos 4 ;;
            code <- match_code m_len (ip - m_pos) ;;
            rout <- put rout code ;;
            scan f base ip_end dict rout (ip + m_len) (ip + m_len) 0
    end.
  (** compress.rs:47-412 [lzo1x_1_do_compress] on the block of [ll] bytes at [base], with [ti] literals pending from
      before it; the dictionary starts zeroed (compress.rs:441-445). *)
  Definition do_compress (base ll ti : N) (rout : bytes) : run (bytes * N) :=
    let ii := base in
    let ip := base + (if ti <? 4 then 4 - ti else 0) in
    let ip := ip + (1 + N.shiftr (ip - ii) 5) in
    r <- scan (S (length inp)) base (base + ll - 20) (fun _ => 0) rout ip ii ti ;;
    let (rout, start) := r : bytes * N in
    Val (rout, base + ll - start).

  (** compress.rs:428-450: the blocks. *)
  Fixpoint blocks (fuel : nat) (ip l t : N) (rout : bytes) : run (bytes * N) :=
    match fuel with
    | O => NoFuel
    | S f =>
        if l <=? 20 then Val (rout, t + l)
        else
          let ll := if l <=? 0xC000 then l else 0xC000 in
          if N.shiftr (t + ll) 5 =? 0 then Val (rout, t + l)
          else
            r <- do_compress ip ll t rout ;;
            let (rout, t) := r : bytes * N in
            blocks f (ip + ll) (l - ll) t rout
    end.

  (** compress.rs:418-589 [lzo1x_1_compress]. *)
  Definition compress : run bytes :=
    r <- blocks (S (length inp)) 0 (blen inp) 0 [] ;;
    let (rout, t) := r : bytes * N in
    rout <- (if t =? 0 then Val rout
             else
               rout <- (if (match rout with [] => true | _ => false end) && (t <=? 238) then put rout [(17 + t) mod 256]
                        else if t <=? 3 then or_back rout t
                        else if t <=? 18 then put rout [t - 3]
                        else l <- len_bytes (t - 18) ;; put rout (0 :: l)) ;;
               l <- rd_slice (blen inp - t) t ;;
               put rout l) ;;
    rout <- put rout [17; 0; 0] ;;
    Val (rev rout).
End Compress.

(** ** decompress.rs *)
(** The error codes the decompressor returns (lib.rs:21-45). *)
Inductive lzo_error := EError | EInputOverrun | EOutputOverrun | ELookbehindOverrun | EInputNotConsumed.
Inductive outcome := Decoded (out : bytes) | Failed (e : lzo_error).

Section Decompress.
  (** Capacity of the output buffer. *)
  Context (cap : N).

  (** decompress.rs:116-131, 243-258, 294-309: skip zeros. The byte is read before the test for the end of the
      input. [inl]: number of zeros, the byte after them and the rest; [inr]: input overrun. *)
  Fixpoint zero_run (off : N) (s : bytes) : run (N * N * bytes + unit) :=
    match s with
    | [] => Fault
    | b :: r =>
        if b =? 0 then match r with [] => Val (inr tt) | _ => zero_run (off + 1) r end
        else Val (inl (off, b, r))
    end.
  (** decompress.rs:132-148 (and the same at 259-275, 310-326): the length a run of zeros stands for. *)
  Definition long_len (base : N) (s : bytes) : run (N * bytes + lzo_error) :=
    z <- zero_run 0 s ;;
    match z with
    | inl (off, b, r) =>
        if 72340172838076671 <? off then Val (inr EError) else Val (inl (off * 255 + (base + b), r))
    | inr _ => Val (inr EInputOverrun)
    end.

  (** Copy [t] bytes from the input; the caller has checked the sizes. *)
  Fixpoint copy_in (t : nat) (o s : bytes) : run (bytes * bytes) :=
    match t with
    | O => Val (o, s)
    | S t' => match s with
              | [] => Fault
              | b :: r => if blen o <? cap then copy_in t' (o ++ [b]) r else Fault
              end
    end.
  (** Copy [t] bytes from the output itself, from position [m_pos] on (decompress.rs:361-378, 208-210). *)
  Fixpoint copy_back (t : nat) (m_pos : N) (o : bytes) : run bytes :=
    match t with
    | O => Val o
    | S t' => match nth_error o (N.to_nat m_pos) with
              | None => Fault
              | Some b => if blen o <? cap then copy_back t' (m_pos + 1) (o ++ [b]) else Fault
              end
    end.
  (** [*ip++] and [get_unaligned_le16] (decompress.rs:8-11). *)
  Definition next_byte (s : bytes) : run (N * bytes) := match s with [] => Fault | b :: r => Val (b, r) end.
  Definition next_le16 (s : bytes) : run (N * bytes) :=
    match s with a :: b :: r => Val (a + 256 * b, r) | _ => Fault end.

  (** What one instruction asks for: copy [t] bytes from distance [dist] and then [next] literals; or the end. *)
  Inductive instr :=
  | IMatch (t dist next : N) (s : bytes)
  | IEnd (t : N) (s : bytes)
  | IFail (e : lzo_error).
  (** decompress.rs:184-346: the instruction byte [t] with its operands, for [t >= 16] or a state other than 0. *)
  Definition decode_match (state t : N) (s : bytes) : run instr :=
    if t <? 16 then
      r <- next_byte s ;;
      let (b, s) := r : N * bytes in
      if negb (state =? 4) then Val (IMatch 2 (1 + N.shiftr t 2 + N.shiftl b 2) (N.land t 3) s)
      else Val (IMatch 3 (1 + 0x800 + N.shiftr t 2 + N.shiftl b 2) (N.land t 3) s)
    else if 64 <=? t then
      r <- next_byte s ;;
      let (b, s) := r : N * bytes in
      Val (IMatch (N.shiftr t 5 - 1 + 2) (1 + N.land (N.shiftr t 2) 7 + N.shiftl b 3) (N.land t 3) s)
    else
      let m3 := 32 <=? t in
      let short := if m3 then N.land t 31 + 2 else N.land t 7 + 2 in
      r <- (if short =? 2 then
              r <- long_len (if m3 then 31 else 7) s ;;
              match r with
              | inl (n, s) => if blen s <? 2 then Val (inr EInputOverrun) else Val (inl (short + n, s))
              | inr e => Val (inr e)
              end
            else Val (inl (short, s))) ;;
      match r with
      | inr e => Val (IFail e)
      | inl (len, s) =>
          r <- next_le16 s ;;
          let (next, s) := r : N * bytes in
          if m3 then Val (IMatch len (1 + N.shiftr next 2) (N.land next 3) s)
          else
            let dist := N.shiftl (N.land t 8) 11 + N.shiftr next 2 in
            if dist =? 0 then Val (IEnd len s) else Val (IMatch len (dist + 0x4000) (N.land next 3) s)
      end.

  (** decompress.rs:105-416: the main loop; [s] is the input from [ip] on. *)
  Fixpoint decode (fuel : nat) (state : N) (o s : bytes) : run outcome :=
    match fuel with
    | O => NoFuel
    | S f =>
        r <- next_byte s ;;
        let (t, s) := r : N * bytes in
        if (t <? 16) && (state =? 0) then
          (* decompress.rs:114-183: a run of literals *)
          r <- (if t =? 0 then long_len 15 s else Val (inl (t, s))) ;;
          match r with
          | inr e => Val (Failed e)
          | inl (t, s) =>
              let t := t + 3 in
              if cap - blen o <? t then Val (Failed EOutputOverrun)
              else if blen s <? t + 3 then Val (Failed EInputOverrun)
              else
                r <- copy_in (N.to_nat t) o s ;;
                let (o, s) := r : bytes * bytes in
                decode f 4 o s
          end
        else
          i <- decode_match state t s ;;
          match i with
          | IFail e => Val (Failed e)
          | IEnd t s =>
              (* decompress.rs:420-431 *)
              if negb (t =? 3) then Val (Failed EError)
              else match s with [] => Val (Decoded o) | _ => Val (Failed EInputNotConsumed) end
          | IMatch t dist next s =>
              if blen o <? dist then Val (Failed ELookbehindOverrun)
              else if cap - blen o <? t then Val (Failed EOutputOverrun)
              else
                o <- copy_back (N.to_nat t) (blen o - dist) o ;;
                (* decompress.rs:380-409 *)
                if blen s <? next + 3 then Val (Failed EInputOverrun)
                else if cap - blen o <? next then Val (Failed EOutputOverrun)
                else
                  r <- copy_in (N.to_nat next) o s ;;
                  let (o, s) := r : bytes * bytes in
                  decode f next o s
          end
    end.

  (** decompress.rs:13-446 [lzo1x_decompress_safe], with the wrapper lib.rs:104-122. *)
  Definition decompress (s : bytes) : run outcome :=
    if blen s <? 3 then Val (Failed EInputOverrun)
    else
      match s with
      | b :: r =>
          if 17 <? b then
            (* decompress.rs:33-101: literals at the very start *)
            let t := b - 17 in
            if t <? 4 then
              if blen r <? t + 3 then Val (Failed EInputOverrun)
              else if cap <? t then Val (Failed EOutputOverrun)
              else
                x <- copy_in (N.to_nat t) [] r ;;
                let (o, r) := x : bytes * bytes in
                decode (S (length s)) t o r
            else
              if cap <? t then Val (Failed EOutputOverrun)
              else if blen r <? t + 3 then Val (Failed EInputOverrun)
              else
                x <- copy_in (N.to_nat t) [] r ;;
                let (o, r) := x : bytes * bytes in
                decode (S (length s)) 4 o r
          else decode (S (length s)) 0 [] s
      | [] => Fault
      end.
End Decompress.
