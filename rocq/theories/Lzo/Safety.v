(** Memory safety and termination of the decompressor. *)
From Verif Require Import Base.Tactics Base.Bytes Lzo.Model.
Local Open Scope N_scope.

Lemma copy_in_ok cap t : forall o s, N.of_nat t <= blen s -> blen o + N.of_nat t <= cap ->
  copy_in cap t o s = Val (o ++ firstn t s, skipn t s).
Proof.
  induction t as [|t IH]; intros o s Hs Ho; cbn [copy_in firstn skipn]; [now rewrite app_nil_r|].
  destruct s as [|b s]; [rewrite blen_nil in Hs; lia|]. rewrite blen_cons in Hs.
  destruct (N.ltb_spec (blen o) cap); [|lia].
  rewrite IH; [|lia|rewrite blen_app, blen_cons, blen_nil; lia]. rewrite <- app_assoc. reflexivity.
Qed.

Lemma copy_back_ok cap t : forall m o, m < blen o -> blen o + N.of_nat t <= cap ->
  exists o', copy_back cap t m o = Val (o ++ o') /\ blen o' = N.of_nat t.
Proof.
  induction t as [|t IH]; intros m o Hm Ho; cbn [copy_back]; [exists []; now rewrite app_nil_r|].
  destruct (nth_error o (N.to_nat m)) as [b|] eqn:E; [|apply nth_error_None in E; unfold blen in Hm; lia].
  destruct (N.ltb_spec (blen o) cap); [|lia].
  destruct (IH (m + 1) (o ++ [b])) as (o' & E' & L); [rewrite blen_app, blen_cons, blen_nil; lia|rewrite blen_app, blen_cons, blen_nil; lia|].
  exists (b :: o'). rewrite E'. rewrite <- app_assoc, blen_cons. split; [reflexivity|lia].
Qed.

Lemma zero_run_ok s : forall off, 1 <= blen s ->
  (exists off' b r, zero_run off s = Val (inl (off', b, r)) /\ blen r < blen s) \/ zero_run off s = Val (inr tt).
Proof.
  induction s as [|b s IH]; intros off H; [rewrite blen_nil in H; lia|]. cbn [zero_run]. destruct (b =? 0).
  - destruct s as [|c s]; [auto|]. destruct (IH (off + 1)) as [(off' & b' & r & E & L)|E]; [rewrite blen_cons; lia| |auto].
    left. exists off', b', r. split; [exact E|]. rewrite !blen_cons in *. lia.
  - left. exists off, b, s. split; [reflexivity|]. rewrite blen_cons. lia.
Qed.
Lemma long_len_ok base s : 1 <= blen s -> 1 <= base ->
  (exists n r, long_len base s = Val (inl (n, r)) /\ blen r < blen s /\ 1 <= n) \/ (exists e, long_len base s = Val (inr e)).
Proof.
  intros H Hb. unfold long_len. destruct (zero_run_ok s 0 H) as [(off & b & r & E & L)|E]; rewrite E; cbn [rbind]; [|eauto].
  destruct (_ <? off); [eauto|]. left. eexists _, _. split; [reflexivity|]. split; [exact L|lia].
Qed.

Lemma land3 x : N.land x 3 <= 3.
Proof. change 3 with (N.ones 2) at 1. rewrite N.land_ones. pose proof (N.mod_lt x (2 ^ 2)). lia. Qed.

Definition instr_ok (s : bytes) (i : instr) : Prop :=
  match i with
  | IMatch t dist next s' => 1 <= dist /\ next <= 3 /\ blen s' <= blen s
  | IEnd _ _ | IFail _ => True
  end.
Lemma decode_match_safe state t s : 2 <= blen s -> exists i, decode_match state t s = Val i /\ instr_ok s i.
Proof.
  intro Hs. destruct s as [|a [|b s]]; [rewrite blen_nil in Hs; lia|rewrite blen_cons, blen_nil in Hs; lia|].
  unfold decode_match. destruct (t <? 16).
  - cbn [next_byte rbind]. destruct (negb (state =? 4)); eexists; (split; [reflexivity|]); cbn [instr_ok];
      (split; [lia|split; [apply land3|rewrite (blen_cons a); lia]]).
  - destruct (64 <=? t).
    + cbn [next_byte rbind]. eexists. split; [reflexivity|]. cbn [instr_ok]. split; [lia|split; [apply land3|rewrite (blen_cons a); lia]].
    + cbv zeta. set (short := if 32 <=? t then _ else _).
      set (base := if 32 <=? t then 31 else 7).
      assert (Hb : 1 <= base) by (unfold base; destruct (32 <=? t); lia).
      match goal with |- context [rbind ?x _] => assert (HX : (exists n r, x = Val (inl (n, r)) /\ 2 <= blen r <= blen (a :: b :: s)) \/ (exists e, x = Val (inr e))) end.
      { destruct (short =? 2).
        - destruct (long_len_ok base (a :: b :: s) ltac:(rewrite blen_cons; lia) Hb) as [(n & r & E & L & _)|(e & E)].
          + change (if 32 <=? t then 31 else 7) with base. rewrite E. cbn [rbind].
            destruct (N.ltb_spec (blen r) 2); [right; eauto|left]. eexists _, _. split; [reflexivity|]. lia.
          + change (if 32 <=? t then 31 else 7) with base. rewrite E. cbn [rbind]. right; eauto.
        - left. eexists _, _. split; [reflexivity|]. lia. }
      destruct HX as [(n & r & -> & L)|(e & ->)]; cbn [rbind].
      * destruct r as [|x [|y r]]; [rewrite blen_nil in L; lia|rewrite blen_cons, blen_nil in L; lia|].
        cbn [next_le16 rbind]. rewrite (blen_cons x), (blen_cons y) in L.
        destruct (32 <=? t); [|destruct (_ =? 0)]; eexists; (split; [reflexivity|]); cbn [instr_ok]; auto;
          (split; [lia|split; [apply land3|lia]]).
      * eexists. split; [reflexivity|]. exact I.
Qed.

Definition within (cap : N) (r : outcome) : Prop := match r with Decoded o => blen o <= cap | Failed _ => True end.

Lemma blen_skipn t (s : bytes) : blen (skipn t s) = blen s - N.of_nat t.
Proof. unfold blen. rewrite skipn_length. lia. Qed.
Lemma blen_firstn t (s : bytes) : blen (firstn t s) = N.min (N.of_nat t) (blen s).
Proof. unfold blen. rewrite firstn_length. lia. Qed.

Lemma decode_safe cap fuel : forall state o s, 3 <= blen s -> blen o <= cap -> (length s < fuel)%nat ->
  exists r, decode cap fuel state o s = Val r /\ within cap r.
Proof.
  induction fuel as [|f IH]; intros state o s Hs Ho Hf; [lia|]. cbn [decode].
  destruct s as [|t s]; [rewrite blen_nil in Hs; lia|]. cbn [next_byte rbind]. cbn [length] in Hf. rewrite blen_cons in Hs.
  destruct ((t <? 16) && (state =? 0)) eqn:Elit.
  - match goal with |- context [rbind (if t =? 0 then ?a else ?b) _] =>
      assert (HX : (exists n r, (if t =? 0 then a else b) = Val (inl (n, r)) /\ blen r <= blen s) \/ (exists e, (if t =? 0 then a else b) = Val (inr e))) end.
    { destruct (t =? 0).
      - destruct (long_len_ok 15 s ltac:(lia) ltac:(lia)) as [(n & r & E & L & _)|(e & E)]; rewrite E; [left|right; eauto].
        eexists _, _. split; [reflexivity|lia].
      - left. eexists _, _. split; [reflexivity|lia]. }
    destruct HX as [(n & r & -> & L)|(e & ->)]; cbn [rbind]; [|eexists; split; [reflexivity|exact I]].
    destruct (N.ltb_spec (cap - blen o) (n + 3)); [eexists; split; [reflexivity|exact I]|].
    destruct (N.ltb_spec (blen r) (n + 3 + 3)); [eexists; split; [reflexivity|exact I]|].
    rewrite copy_in_ok by lia. cbn [rbind]. apply IH.
    + rewrite blen_skipn. lia.
    + rewrite blen_app, blen_firstn. lia.
    + rewrite skipn_length. unfold blen in *. lia.
  - destruct (decode_match_safe state t s ltac:(lia)) as ([t' dist next s'|t' s'|e] & -> & Hi); cbn [rbind].
    + cbn [instr_ok] in Hi.
      destruct (N.ltb_spec (blen o) dist); [eexists; split; [reflexivity|exact I]|].
      destruct (N.ltb_spec (cap - blen o) t'); [eexists; split; [reflexivity|exact I]|].
      destruct (copy_back_ok cap (N.to_nat t') (blen o - dist) o) as (o' & -> & L); [lia|lia|]. cbn [rbind].
      destruct (N.ltb_spec (blen s') (next + 3)); [eexists; split; [reflexivity|exact I]|].
      destruct (N.ltb_spec (cap - blen (o ++ o')) next); [eexists; split; [reflexivity|exact I]|].
      rewrite blen_app in *. rewrite copy_in_ok by (rewrite ?blen_app; lia). cbn [rbind]. apply IH.
      * rewrite blen_skipn. lia.
      * rewrite !blen_app, blen_firstn. lia.
      * rewrite skipn_length. unfold blen in *. lia.
    + destruct (negb (t' =? 3)); [eexists; split; [reflexivity|exact I]|].
      destruct s'; eexists; split; try reflexivity; cbn [within]; auto.
    + eexists. split; [reflexivity|exact I].
Qed.

Lemma decompress_safe cap s : exists r, decompress cap s = Val r /\ within cap r.
Proof.
  unfold decompress. destruct (N.ltb_spec (blen s) 3) as [|H]; [eexists; split; [reflexivity|exact I]|].
  destruct s as [|b r]; [rewrite blen_nil in H; lia|]. rewrite blen_cons in H.
  destruct (N.ltb_spec 17 b); [|apply decode_safe; [rewrite blen_cons; lia|rewrite blen_nil; lia|lia]].
  cbv zeta. destruct (b - 17 <? 4).
  - destruct (N.ltb_spec (blen r) (b - 17 + 3)); [eexists; split; [reflexivity|exact I]|].
    destruct (N.ltb_spec cap (b - 17)); [eexists; split; [reflexivity|exact I]|].
    rewrite copy_in_ok by (rewrite ?blen_nil; lia). cbn [rbind]. apply decode_safe.
    + rewrite blen_skipn. lia.
    + cbn [app]. rewrite blen_firstn. lia.
    + rewrite skipn_length. cbn [length]. lia.
  - destruct (N.ltb_spec cap (b - 17)); [eexists; split; [reflexivity|exact I]|].
    destruct (N.ltb_spec (blen r) (b - 17 + 3)); [eexists; split; [reflexivity|exact I]|].
    rewrite copy_in_ok by (rewrite ?blen_nil; lia). cbn [rbind]. apply decode_safe.
    + rewrite blen_skipn. lia.
    + cbn [app]. rewrite blen_firstn. lia.
    + rewrite skipn_length. cbn [length]. lia.
Qed.

(** More fuel does not change a result. *)
Lemma decode_mono cap f : forall f' state o s r, decode cap f state o s = Val r -> (f <= f')%nat -> decode cap f' state o s = Val r.
Proof.
  induction f as [|f IH]; intros f' state o s r H Hf; [discriminate|]. destruct f' as [|f']; [lia|].
  cbn [decode] in *. destruct (next_byte s) as [[t s1]| |]; cbn [rbind] in *; try discriminate.
  destruct ((t <? 16) && (state =? 0)).
  - destruct (if t =? 0 then _ else _) as [[[n s2]|e]| |]; cbn [rbind] in *; try discriminate; auto.
    destruct (_ <? _); auto. destruct (_ <? _); auto.
    destruct (copy_in _ _ _ _) as [[o' s']| |]; cbn [rbind] in *; try discriminate. apply IH; [auto|lia].
  - destruct (decode_match state t s1) as [[]| |]; cbn [rbind] in *; try discriminate; auto.
    destruct (_ <? _); auto. destruct (_ <? _); auto.
    destruct (copy_back _ _ _ _) as [o'| |]; cbn [rbind] in *; try discriminate.
    destruct (_ <? _); auto. destruct (_ <? _); auto.
    destruct (copy_in _ _ _ _) as [[o'' s']| |]; cbn [rbind] in *; try discriminate. apply IH; [auto|lia].
Qed.
