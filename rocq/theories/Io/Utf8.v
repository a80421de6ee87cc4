(** The validity check accepts exactly the encodings of sequences of scalar values. *)
From Verif Require Import Base.Tactics Base.Bytes Io.Model Io.Spec.
Local Open Scope N_scope.

Ltac bcase :=
  repeat match goal with
  | |- context [?a <? ?b] => destruct (N.ltb_spec a b); try lia
  | |- context [?a =? ?b] => destruct (N.eqb_spec a b); try lia
  | |- context [?a <=? ?b] => destruct (N.leb_spec a b); try lia
  end; cbn [andb].
Lemma char_valid c r : is_scalar c -> utf8_go 0 128 191 (utf8_char c ++ r) = utf8_go 0 128 191 r.
Proof.
  unfold is_scalar, utf8_char. intro H.
  destruct (N.ltb_spec c 128); [cbn [app utf8_go]; bcase; reflexivity|].
  destruct (N.ltb_spec c 2048); [cbn [app utf8_go]; bcase; reflexivity|].
  destruct (N.ltb_spec c 65536); cbn [app utf8_go]; bcase; try reflexivity.
Qed.
Lemma valid_of_utf8 s : is_utf8 s -> utf8_valid s = true.
Proof.
  intros (cs & H & ->). unfold utf8_valid. induction H as [|c cs Hc _ IH]; [reflexivity|]. cbn [flat_map]. rewrite char_valid; auto.
Qed.

Lemma one_more k lo hi l : utf8_go (S k) lo hi l = true -> exists b r, l = b :: r /\ lo <= b <= hi /\ utf8_go k 128 191 r = true.
Proof.
  destruct l as [|b r]; cbn [utf8_go]; [discriminate|]. destruct (N.leb_spec lo b); [|discriminate].
  destruct (N.leb_spec b hi); [|discriminate]. cbn [andb]. eauto 10.
Qed.
Lemma utf8_cons c s : is_scalar c -> is_utf8 s -> is_utf8 (utf8_char c ++ s).
Proof. intros Hc (cs & H & ->). exists (c :: cs). auto. Qed.
Lemma two a b : 194 <= a < 224 -> 128 <= b <= 191 -> exists c, is_scalar c /\ utf8_char c = [a; b].
Proof.
  intros. exists ((a - 192) * 64 + (b - 128)). split; [unfold is_scalar; lia|]. unfold utf8_char. bcase. repeat f_equal; lia.
Qed.
Lemma three a b c : 224 <= a < 240 -> 128 <= b <= 191 -> (a = 224 -> 160 <= b) -> (a = 237 -> b <= 159) -> 128 <= c <= 191 ->
  exists x, is_scalar x /\ utf8_char x = [a; b; c].
Proof.
  intros. exists ((a - 224) * 4096 + (b - 128) * 64 + (c - 128)). split; [unfold is_scalar; lia|]. unfold utf8_char. bcase. repeat f_equal; lia.
Qed.
Lemma four a b c d : 240 <= a <= 244 -> 128 <= b <= 191 -> (a = 240 -> 144 <= b) -> (a = 244 -> b <= 143) -> 128 <= c <= 191 -> 128 <= d <= 191 ->
  exists x, is_scalar x /\ utf8_char x = [a; b; c; d].
Proof.
  intros. exists ((a - 240) * 262144 + (b - 128) * 4096 + (c - 128) * 64 + (d - 128)). split; [unfold is_scalar; lia|]. unfold utf8_char. bcase. repeat f_equal; lia.
Qed.
Lemma utf8_of_valid s : utf8_valid s = true -> is_utf8 s.
Proof.
  unfold utf8_valid. remember (length s) as n eqn:En. assert (length s <= n)%nat as L by lia. clear En.
  revert s L. induction n as [|n IH]; intros s L H.
  - destruct s; [|cbn in L; lia]. exists []. auto.
  - destruct s as [|a s]; [exists []; auto|]. cbn [length] in L. cbn [utf8_go] in H.
    assert (forall x tl, is_scalar x -> utf8_char x ++ tl = a :: s -> (length tl <= n)%nat -> utf8_go 0 128 191 tl = true -> is_utf8 (a :: s)) as Fin.
    { intros x tl Hx <- Lt Ht. apply utf8_cons; auto. }
    Ltac eat := match goal with H : utf8_go (S _) _ _ _ = true |- _ => apply one_more in H; destruct H as (? & ? & -> & ? & H) end.
    destruct (N.ltb_spec a 128).
    { apply (Fin a s); auto; [unfold is_scalar; lia|unfold utf8_char; bcase; reflexivity|lia]. }
    destruct (N.ltb_spec a 194); [discriminate|].
    assert (forall b r, a < 224 -> s = b :: r -> 128 <= b <= 191 -> utf8_go 0 128 191 r = true -> is_utf8 (a :: s)) as F2.
    { intros b r Ha -> Hb Hr. destruct (two a b) as (x & Hx & E); try lia. apply (Fin x r); auto; [rewrite E; reflexivity|cbn in L; lia]. }
    assert (forall b c r, 224 <= a < 240 -> s = b :: c :: r -> 128 <= b <= 191 -> (a = 224 -> 160 <= b) -> (a = 237 -> b <= 159) -> 128 <= c <= 191 ->
      utf8_go 0 128 191 r = true -> is_utf8 (a :: s)) as F3.
    { intros b c r Ha -> Hb K1 K2 Hc Hr. destruct (three a b c) as (x & Hx & E); try lia. apply (Fin x r); auto; [rewrite E; reflexivity|cbn in L; lia]. }
    assert (forall b c d r, 240 <= a <= 244 -> s = b :: c :: d :: r -> 128 <= b <= 191 -> (a = 240 -> 144 <= b) -> (a = 244 -> b <= 143) ->
      128 <= c <= 191 -> 128 <= d <= 191 -> utf8_go 0 128 191 r = true -> is_utf8 (a :: s)) as F4.
    { intros b c d r Ha -> Hb K1 K2 Hc Hd Hr. destruct (four a b c d) as (x & Hx & E); try lia. apply (Fin x r); auto; [rewrite E; reflexivity|cbn in L; lia]. }
    destruct (N.ltb_spec a 224); [eat; eapply F2; eauto|].
    destruct (N.eqb_spec a 224); [do 2 eat; eapply F3; eauto; lia|].
    destruct (N.ltb_spec a 237); [do 2 eat; eapply F3; eauto; lia|].
    destruct (N.eqb_spec a 237); [do 2 eat; eapply F3; eauto; lia|].
    destruct (N.ltb_spec a 240); [do 2 eat; eapply F3; eauto; lia|].
    destruct (N.eqb_spec a 240); [do 3 eat; eapply F4; eauto; lia|].
    destruct (N.ltb_spec a 244); [do 3 eat; eapply F4; eauto; lia|].
    destruct (N.eqb_spec a 244); [do 3 eat; eapply F4; eauto; lia|discriminate].
Qed.
Lemma utf8_valid_iff s : utf8_valid s = true <-> is_utf8 s.
Proof. split; [apply utf8_of_valid|apply valid_of_utf8]. Qed.
