(** C52: a compressed stream ends where its end marker says. *)
From Verif Require Import Base.Tactics Base.Bytes Lzo.Model.
Local Open Scope N_scope.

Section Stream.
  Context (cap : N) (x : bytes).

  Lemma zero_run_more s : forall off z b r, zero_run off s = Val (inl (z, b, r)) -> zero_run off (s ++ x) = Val (inl (z, b, r ++ x)).
  Proof.
    induction s as [|c s IH]; intros off z b r; cbn [zero_run app]; [discriminate|]. destruct (c =? 0).
    - destruct s as [|d s]; [discriminate|]. intro H. cbn [app]. apply (IH (off + 1) z b r H).
    - intro H. injection H as <- <- <-. reflexivity.
  Qed.
  Lemma long_len_more base s n r : long_len base s = Val (inl (n, r)) -> long_len base (s ++ x) = Val (inl (n, r ++ x)).
  Proof.
    unfold long_len. destruct (zero_run 0 s) as [[[[z b] r']|]| |] eqn:E; cbn [rbind]; try discriminate.
    rewrite (zero_run_more _ _ _ _ _ E). cbn [rbind]. destruct (_ <? z); [discriminate|]. intro H. injection H as <- <-. reflexivity.
  Qed.
  Lemma copy_in_more t : forall o s o' r, copy_in cap t o s = Val (o', r) -> copy_in cap t o (s ++ x) = Val (o', r ++ x).
  Proof.
    induction t as [|t IH]; intros o s o' r; cbn [copy_in]; [intro H; injection H as <- <-; reflexivity|].
    destruct s as [|b s]; [discriminate|]. cbn [app]. destruct (blen o <? cap); [|discriminate]. apply IH.
  Qed.
  Lemma next_byte_more s b r : next_byte s = Val (b, r) -> next_byte (s ++ x) = Val (b, r ++ x).
  Proof. destruct s; [discriminate|]. intro H. injection H as <- <-. reflexivity. Qed.
  Lemma next_le16_more s b r : next_le16 s = Val (b, r) -> next_le16 (s ++ x) = Val (b, r ++ x).
  Proof. destruct s as [|c [|d s]]; try discriminate. intro H. unfold next_le16 in *. cbn [app]. injection H as <- <-. reflexivity. Qed.
  Lemma enough s k : (blen s <? k) = false -> (blen (s ++ x) <? k) = false.
  Proof. rewrite !N.ltb_ge, blen_app. lia. Qed.
  Definition more (i : instr) : instr := match i with IMatch t d n s => IMatch t d n (s ++ x) | IEnd t s => IEnd t (s ++ x) | IFail e => IFail e end.
  Lemma decode_match_more st t s i : decode_match st t s = Val i -> (forall e, i <> IFail e) -> decode_match st t (s ++ x) = Val (more i).
  Proof.
    unfold decode_match. intros H Hf. destruct (t <? 16).
    { destruct (next_byte s) as [[b r]| |] eqn:E; cbn [rbind] in H; try discriminate. rewrite (next_byte_more _ _ _ E). cbn [rbind].
      destruct (negb _); injection H as <-; reflexivity. }
    destruct (64 <=? t).
    { destruct (next_byte s) as [[b r]| |] eqn:E; cbn [rbind] in H; try discriminate. rewrite (next_byte_more _ _ _ E). cbn [rbind]. injection H as <-. reflexivity. }
    cbv zeta in *.
    match type of H with rbind ?f ?k = _ => destruct f as [[[len r]|e]| |] eqn:E; cbn [rbind] in H; try discriminate end.
    2:{ injection H as <-. now destruct (Hf e). }
    assert (E' : (if (if 32 <=? t then N.land t 31 + 2 else N.land t 7 + 2) =? 2
      then
       rbind (long_len (if 32 <=? t then 31 else 7) (s ++ x))
         (fun r0 : N * bytes + lzo_error =>
          match r0 with
          | inl (n, s0) => if blen s0 <? 2 then Val (inr EInputOverrun) else Val (inl ((if 32 <=? t then N.land t 31 + 2 else N.land t 7 + 2) + n, s0))
          | inr e => Val (inr e)
          end)
      else Val (inl (if 32 <=? t then N.land t 31 + 2 else N.land t 7 + 2, s ++ x))) = Val (inl (len, r ++ x))).
    { destruct (_ =? 2).
      - destruct (long_len _ s) as [[[n r']|e]| |] eqn:El; cbn [rbind] in E; try discriminate. rewrite (long_len_more _ _ _ _ El). cbn [rbind].
        destruct (blen r' <? 2) eqn:Eb; [discriminate|]. rewrite (enough _ _ Eb). injection E as <- <-. reflexivity.
      - injection E as <- <-. reflexivity. }
    rewrite E'. cbn [rbind]. clear E E'. destruct (next_le16 r) as [[n r']| |] eqn:En; cbn [rbind] in H; try discriminate.
    rewrite (next_le16_more _ _ _ En). cbn [rbind]. destruct (32 <=? t); [injection H as <-; reflexivity|]. destruct (_ =? 0); injection H as <-; reflexivity.
  Qed.
  Lemma decode_more : x <> [] -> forall f st o s d, decode cap f st o s = Val (Decoded d) ->
    forall f', (f <= f')%nat -> decode cap f' st o (s ++ x) = Val (Failed EInputNotConsumed).
  Proof.
    intro Hx. induction f as [|f IH]; intros st o s d H f' Hf; [discriminate|]. destruct f' as [|f']; [lia|]. cbn [decode] in *.
    destruct (next_byte s) as [[t r]| |] eqn:E; cbn [rbind] in H; try discriminate. rewrite (next_byte_more _ _ _ E). cbn [rbind].
    destruct ((t <? 16) && (st =? 0)).
    - match type of H with rbind ?g ?k = _ => destruct g as [[[t' r']|e]| |] eqn:E1; cbn [rbind] in H; try discriminate end.
      assert (E2 : (if t =? 0 then long_len 15 (r ++ x) else Val (inl (t, r ++ x))) = Val (inl (t', r' ++ x))).
      { destruct (t =? 0); [now apply long_len_more|injection E1 as <- <-; reflexivity]. }
      rewrite E2. cbn [rbind]. cbv zeta in *. destruct (cap - blen o <? t' + 3); [discriminate|].
      destruct (blen r' <? t' + 3 + 3) eqn:Eb; [discriminate|]. rewrite (enough _ _ Eb).
      destruct (copy_in _ _ o r') as [[o' r'']| |] eqn:Ec; cbn [rbind] in H; try discriminate. rewrite (copy_in_more _ _ _ _ _ Ec). cbn [rbind].
      eapply IH; [exact H|lia].
    - destruct (decode_match st t r) as [i| |] eqn:Em; cbn [rbind] in H; try discriminate.
      rewrite (decode_match_more _ _ _ _ Em) by (intros e ->; discriminate). cbn [rbind]. destruct i as [t' dist next s'|t' s'|e]; cbn [more]; [| |discriminate].
      + destruct (blen o <? dist); [discriminate|]. destruct (cap - blen o <? t'); [discriminate|].
        destruct (copy_back _ _ _ o) as [o'| |]; cbn [rbind] in *; try discriminate.
        destruct (blen s' <? next + 3) eqn:Eb; [discriminate|]. rewrite (enough _ _ Eb). destruct (cap - blen o' <? next); [discriminate|].
        destruct (copy_in _ _ o' s') as [[o'' r'']| |] eqn:Ec; cbn [rbind] in H; try discriminate. rewrite (copy_in_more _ _ _ _ _ Ec). cbn [rbind].
        eapply IH; [exact H|lia].
      + destruct (negb (t' =? 3)); [discriminate|]. destruct s'; [|discriminate]. cbn [app]. destruct x; [now destruct Hx|reflexivity].
  Qed.
End Stream.

(** A stream that decompresses, followed by anything, is refused as not consumed, however large the output buffer: no
    stream is the beginning of another. *)
Theorem C52_streams_end_themselves : forall buffer stream out extra,
  decompress buffer stream = Val (Decoded out) -> extra <> [] ->
  decompress buffer (stream ++ extra) = Val (Failed EInputNotConsumed).
Proof.
  intros cap s d x H Hx. unfold decompress in *. destruct (blen s <? 3) eqn:E; [discriminate|]. rewrite (enough _ _ _ E).
  destruct s as [|b r]; [discriminate|]. cbn [app]. destruct (17 <? b).
  - cbv zeta in *. destruct (b - 17 <? 4).
    + destruct (blen r <? b - 17 + 3) eqn:Eb; [discriminate|]. rewrite (enough _ _ _ Eb). destruct (cap <? b - 17); [discriminate|].
      destruct (copy_in _ _ _ r) as [[o r']| |] eqn:Ec; cbn [rbind] in H; try discriminate. rewrite (copy_in_more _ x _ _ _ _ _ Ec). cbn [rbind].
      eapply decode_more; [exact Hx|exact H|]. cbn [length]. rewrite app_length. lia.
    + destruct (cap <? b - 17); [discriminate|]. destruct (blen r <? b - 17 + 3) eqn:Eb; [discriminate|]. rewrite (enough _ _ _ Eb).
      destruct (copy_in _ _ _ r) as [[o r']| |] eqn:Ec; cbn [rbind] in H; try discriminate. rewrite (copy_in_more _ x _ _ _ _ _ Ec). cbn [rbind].
      eapply decode_more; [exact Hx|exact H|]. cbn [length]. rewrite app_length. lia.
  - change (b :: r ++ x) with ((b :: r) ++ x). eapply decode_more; [exact Hx|exact H|]. cbn [length app]. rewrite app_length. lia.
Qed.
Example C52_ex : decompress 3 [20; 1; 2; 3; 17; 0; 0] = Val (Decoded [1; 2; 3]) /\
  decompress 3 ([20; 1; 2; 3; 17; 0; 0] ++ [9]) = Val (Failed EInputNotConsumed).
Proof. split; [reflexivity|]. apply (C52_streams_end_themselves 3 _ [1; 2; 3] [9]); [reflexivity|discriminate]. Qed.
Print Assumptions C52_streams_end_themselves.
