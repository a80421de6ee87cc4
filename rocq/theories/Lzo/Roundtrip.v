(** Decompression inverts compression, and the size bound. *)
From Verif Require Import Base.Tactics Base.Bytes Lzo.Model Lzo.Safety Lzo.Codes.
Local Open Scope N_scope.

Section RT.
  Context (inp : bytes) (cc dc : N).
  Hypothesis (Hbytes : is_bytes inp) (Hlen : blen inp < 2 ^ 63) (Hcc : worst_compress (blen inp) <= cc) (Hdc : blen inp <= dc).
  Let len := blen inp.
  Let pre (p : N) : bytes := firstn (N.to_nat p) inp.
  Let dec := decode dc.

  Lemma pre_slice p k : pre (p + k) = pre p ++ slice inp p k.
  Proof.
    unfold pre, slice. rewrite N2Nat.inj_add.
    rewrite <- (firstn_skipn (N.to_nat p) inp) at 1. rewrite firstn_app, firstn_firstn.
    replace (Nat.min (N.to_nat p + N.to_nat k) (N.to_nat p)) with (N.to_nat p) by lia.
    rewrite firstn_length. destruct (Nat.le_ge_cases (N.to_nat p) (length inp)) as [L|L].
    - now replace (N.to_nat p + N.to_nat k - Nat.min (N.to_nat p) (length inp))%nat with (N.to_nat k) by lia.
    - rewrite (skipn_all2 inp) by lia. now rewrite !firstn_nil.
  Qed.
  Lemma blen_pre p : p <= len -> blen (pre p) = p.
  Proof. intro H. unfold pre, blen, len in *. rewrite firstn_length. unfold blen in H. lia. Qed.
  Lemma blen_slice p k : p + k <= len -> blen (slice inp p k) = k.
  Proof. intro H. unfold slice, blen, len in *. rewrite firstn_length, skipn_length. unfold blen in H. lia. Qed.
  Lemma pre_all : pre len = inp.
  Proof. unfold pre, len, blen. rewrite Nnat.Nat2N.id. apply firstn_all. Qed.
  Lemma slice_0 p : slice inp p 0 = [].
  Proof. reflexivity. Qed.

  (** ** Decoder steps *)
  Definition lit_head (t : N) (h : bytes) : Prop :=
    (4 <= t <= 18 /\ h = [t - 3]) \/
    (19 <= t /\ exists k b, h = 0 :: repeat 0 k ++ [b] /\ t - 18 = 255 * N.of_nat k + b /\ 1 <= b <= 255).
  Lemma dec_lit t h p rest f : lit_head t h -> p + t <= len -> 3 <= blen rest ->
    dec (S f) 0 (pre p) (h ++ slice inp p t ++ rest) = dec f 4 (pre (p + t)) rest.
  Proof.
    intros Hh Hp Hr. unfold dec. cbn [decode].
    assert (K : exists b s, h ++ slice inp p t ++ rest = b :: s /\ b < 16 /\
      (if b =? 0 then long_len 15 s else Val (inl (b, s))) = Val (inl (t - 3, slice inp p t ++ rest))).
    { destruct Hh as [(Ht & ->)|(Ht & k & b & -> & En & Hb)].
      - eexists _, _. split; [reflexivity|]. split; [lia|]. destruct (N.eqb_spec (t - 3) 0); [lia|reflexivity].
      - eexists _, _. split; [reflexivity|]. split; [lia|]. change (0 =? 0) with true. cbv iota.
        change (firstn (N.to_nat t) (skipn (N.to_nat p) inp)) with (slice inp p t).
        rewrite (long_len_ok2 15 (t - 18) k b _ En Hb) by lia. do 3 f_equal. lia. }
    destruct K as (b & s & -> & Hb & E). cbn [next_byte rbind].
    replace ((b <? 16) && (0 =? 0)) with true by (symmetry; apply andb_true_iff; split; [apply N.ltb_lt; exact Hb|reflexivity]).
    rewrite E. cbn [rbind].
    replace (t - 3 + 3) with t by (destruct Hh as [(Ht & _)|(Ht & _)]; lia).
    rewrite blen_pre by lia. destruct (N.ltb_spec (dc - p) t) as [L|_]; [unfold len in *; lia|].
    rewrite blen_app, blen_slice by lia. destruct (N.ltb_spec (t + blen rest) (t + 3)); [lia|].
    rewrite copy_in_ok; [|rewrite blen_app, blen_slice by lia; lia|rewrite blen_pre by lia; unfold len in *; lia].
    cbn [rbind].
    assert (Ls : length (slice inp p t) = N.to_nat t) by (pose proof (blen_slice p t Hp) as Q; unfold blen in Q; lia).
    rewrite <- Ls, firstn_app, firstn_all, Nat.sub_diag, firstn_O, app_nil_r.
    rewrite skipn_app, skipn_all, Nat.sub_diag. cbn [skipn app]. rewrite pre_slice. reflexivity.
  Qed.

  Definition same (m_pos ip m : N) : Prop :=
    forall i, i < m -> nth_error inp (N.to_nat (m_pos + i)) = nth_error inp (N.to_nat (ip + i)).

  Lemma pre_snoc p b : nth_error inp (N.to_nat p) = Some b -> pre p ++ [b] = pre (p + 1).
  Proof.
    intro H. rewrite pre_slice. f_equal. unfold slice. change (N.to_nat 1) with 1%nat.
    destruct (skipn (N.to_nat p) inp) as [|c r] eqn:E.
    - assert (length inp <= N.to_nat p)%nat. { pose proof (f_equal (@length N) E) as Q. rewrite skipn_length in Q. cbn in Q. lia. }
      rewrite (proj2 (nth_error_None inp (N.to_nat p))) in H by lia. discriminate.
    - cbn. f_equal. rewrite <- (firstn_skipn (N.to_nat p) inp), E in H.
      rewrite nth_error_app2 in H by (rewrite firstn_length; lia).
      rewrite firstn_length in H.
      assert (N.to_nat p < length inp)%nat.
      { pose proof (f_equal (@length N) E) as Q. rewrite skipn_length in Q. cbn in Q. lia. }
      replace (N.to_nat p - Nat.min (N.to_nat p) (length inp))%nat with O in H by lia. cbn in H. congruence.
  Qed.

  Lemma copy_same m : forall m_pos ip, m_pos < ip -> ip + N.of_nat m <= len -> same m_pos ip (N.of_nat m) ->
    copy_back dc m m_pos (pre ip) = Val (pre (ip + N.of_nat m)).
  Proof.
    induction m as [|m IH]; intros m_pos ip H1 H2 H3; cbn [copy_back]; [do 2 f_equal; lia|].
    assert (E : nth_error (pre ip) (N.to_nat m_pos) = nth_error inp (N.to_nat ip)).
    { pose proof (H3 0 ltac:(lia)) as Q. rewrite !N.add_0_r in Q. rewrite <- Q. unfold pre.
      rewrite <- (firstn_skipn (N.to_nat ip) inp) at 2. rewrite nth_error_app1; [reflexivity|].
      rewrite firstn_length. unfold len, blen in H2. lia. }
    rewrite E. destruct (nth_error inp (N.to_nat ip)) as [b|] eqn:Eb.
    2: { apply nth_error_None in Eb. unfold len, blen in H2. lia. }
    rewrite blen_pre by lia. destruct (N.ltb_spec ip dc); [|unfold len in *; lia].
    rewrite (pre_snoc ip b Eb). rewrite IH; [do 2 f_equal; lia|lia|lia|].
    intros i Hi. replace (m_pos + 1 + i) with (m_pos + (1 + i)) by lia. replace (ip + 1 + i) with (ip + (1 + i)) by lia. apply H3. lia.
  Qed.

  Lemma dec_match m off a x y k st ip rest f : code_ok m off a x y -> k <= 3 -> 1 <= off <= ip -> ip + m + k <= len ->
    same (ip - off) ip m -> 3 <= blen rest ->
    dec (S f) st (pre ip) (a ++ [x + k; y] ++ slice inp (ip + m) k ++ rest) = dec f k (pre (ip + m + k)) rest.
  Proof.
    intros (_ & _ & _ & _ & HC) Hk Ho Hp Hs Hr. destruct (HC k Hk) as (b & r & E & Hb & HD).
    rewrite app_assoc, E. unfold dec. cbn [decode app next_byte rbind].
    destruct (N.ltb_spec b 16); [lia|]. cbn [andb]. rewrite HD. cbn [rbind].
    rewrite blen_pre by lia. destruct (N.ltb_spec ip off); [lia|].
    destruct (N.ltb_spec (dc - ip) m); [unfold len in *; lia|].
    assert (CS : copy_back dc (N.to_nat m) (ip - off) (pre ip) = Val (pre (ip + m))).
    { pose proof (copy_same (N.to_nat m) (ip - off) ip) as Q. rewrite N2Nat.id in Q. apply Q; [lia|lia|exact Hs]. }
    rewrite CS. cbn [rbind].
    rewrite blen_app, blen_slice by lia. destruct (N.ltb_spec (k + blen rest) (k + 3)); [lia|].
    rewrite blen_pre by lia. destruct (N.ltb_spec (dc - (ip + m)) k); [unfold len in *; lia|].
    rewrite copy_in_ok; [|rewrite blen_app, blen_slice by lia; lia|rewrite blen_pre by lia; unfold len in *; lia].
    cbn [rbind].
    assert (Ls : length (slice inp (ip + m) k) = N.to_nat k) by (pose proof (blen_slice (ip + m) k ltac:(lia)) as Q; unfold blen in Q; lia).
    rewrite <- Ls at 1 2. rewrite firstn_app, firstn_all, Nat.sub_diag, firstn_O, app_nil_r.
    rewrite skipn_app, skipn_all, Nat.sub_diag. cbn [skipn app]. rewrite (pre_slice (ip + m)). reflexivity.
  Qed.

  Lemma dec_end st o f : dec (S f) st o [17; 0; 0] = Val (Decoded o).
  Proof. unfold dec. cbn [decode next_byte rbind]. reflexivity. Qed.

  (** ** What the output written so far means *)
  Definition starts_low (l : bytes) : Prop := exists b r, l = b :: r /\ b <= 17.
  (** Everything up to [p] is encoded; the last code can still take up to three literals. *)
  Definition settled (rout : bytes) (p : N) : Prop :=
    p <= len /\
    (rout = [] /\ p = 0 \/
     exists a x y n, rout = y :: x :: rev a /\ starts_low a /\ x mod 4 = 0 /\ x < 256 /\
       forall k rest f, k <= 3 -> p + k <= len -> 3 <= blen rest ->
         dec (n + f) 0 [] (a ++ [x + k; y] ++ slice inp p k ++ rest) = dec f k (pre (p + k)) rest).
  (** Everything up to [q] is encoded and an instruction follows. *)
  Definition ready (rout : bytes) (q : N) : Prop :=
    starts_low (rev rout) /\
    exists n st, forall rest f, 3 <= blen rest -> dec (n + f) 0 [] (rev rout ++ rest) = dec f st (pre q) rest.

  Lemma or_add x k : x mod 4 = 0 -> x < 256 -> k <= 3 -> N.lor x k mod 256 = x + k.
  Proof.
    intros Hx Hx2 Hk.
    assert (E : x = 4 * (x / 4)) by lia. remember (x / 4) as v eqn:Ev. assert (Hv : v < 64) by lia. clear Ev Hx. subst x.
    assert (Ek : k = 0 \/ k = 1 \/ k = 2 \/ k = 3) by lia.
    destruct Ek as [->|[->|[->| ->]]]; apply N.eqb_eq;
      match goal with |- context [N.lor (4 * v) ?k] => apply (below (fun v => N.lor (4 * v) k mod 256 =? 4 * v + k) 64); [reflexivity|exact Hv] end.
  Qed.

  Lemma put_ok rout l : blen rout + blen l <= cc -> put cc rout l = Val (rev l ++ rout).
  Proof. intro H. unfold put. destruct (N.leb_spec (blen rout + blen l) cc); [reflexivity|lia]. Qed.
  Lemma room_ok rout n : blen rout + n <= cc -> room cc rout n = Val tt.
  Proof. intro H. unfold room. destruct (N.leb_spec (blen rout + n) cc); [reflexivity|lia]. Qed.
  Lemma rd_slice_ok i n : i + n <= len -> rd_slice inp i n = Val (slice inp i n).
  Proof. intro H. unfold rd_slice. destruct (N.leb_spec (i + n) (blen inp)); [reflexivity|unfold len in *; lia]. Qed.

  (** Bytes a run of [t] literals costs beyond the literals. *)
  Definition overhead (t : N) : N := if t <=? 3 then 0 else if t <=? 18 then 1 else 2 + (t - 19) / 255.

  Lemma head_ok t : 19 <= t -> exists h, len_bytes (t - 18) = Val h /\ lit_head t (0 :: h) /\ blen (0 :: h) = overhead t.
  Proof.
    intro Ht. destruct (len_bytes_ok (t - 18)) as (k & b & E & En & Hb); [lia|].
    exists (repeat 0 k ++ [b]). split; [exact E|]. split.
    - right. split; [exact Ht|]. eauto.
    - rewrite blen_cons, blen_run. unfold overhead. destruct (N.leb_spec t 3); [lia|]. destruct (N.leb_spec t 18); [lia|].
      assert ((t - 19) / 255 = N.of_nat k) by (symmetry; apply (N.div_unique (t - 19) 255 _ (b - 1)); lia). lia.
  Qed.

  (** A settled output followed by a literal run. *)
  Lemma settled_run rout p t h : settled rout p -> lit_head t h -> p + t <= len ->
    ready (rev (slice inp p t) ++ rev h ++ rout) (p + t).
  Proof.
    intros [Hp Hs] Hh Ht.
    assert (Hh0 : exists b r, h = b :: r /\ b < 16).
    { destruct Hh as [(H1 & ->)|(H1 & k & b & -> & _)]; eexists _, _; (split; [reflexivity|lia]). }
    destruct Hs as [(-> & ->)|(a & x & y & n & -> & Ha & Hx & Hx2 & HD)].
    - rewrite app_nil_r. unfold ready. rewrite rev_app_distr, !rev_involutive. split.
      + destruct Hh0 as (b & r & -> & Hb). exists b, (r ++ slice inp 0 t). split; [reflexivity|lia].
      + exists 1%nat, 4. intros rest f Hr. cbn [Nat.add]. rewrite <- app_assoc.
        change (@nil N) with (pre 0) at 1. now apply dec_lit.
    - unfold ready. rewrite !rev_app_distr, !rev_involutive. cbn [rev]. rewrite rev_involutive, <- !app_assoc. cbn [app].
      split.
      + destruct Ha as (b & r & -> & Hb). eexists _, _. split; [reflexivity|exact Hb].
      + exists (n + 1)%nat, 4. intros rest f Hr. rewrite <- Nat.add_assoc.
        assert (Hrest : 3 <= blen (h ++ slice inp p t ++ rest)) by (rewrite !blen_app; lia).
        pose proof (HD 0 (h ++ slice inp p t ++ rest) (1 + f)%nat ltac:(lia) ltac:(lia) Hrest) as Q.
        rewrite !N.add_0_r in Q. rewrite slice_0 in Q. cbn [app] in Q.
        rewrite <- !app_assoc. cbn [app].
        rewrite <- (app_assoc h), Q. now apply dec_lit.
  Qed.
  (** A settled output whose last code takes up to three literals. *)
  Lemma settled_few rout p t : settled rout p -> rout <> [] -> t <= 3 -> p + t <= len ->
    exists r', or_back rout t = Val r' /\ blen r' = blen rout /\ ready (rev (slice inp p t) ++ r') (p + t).
  Proof.
    intros [Hp Hs] Hne Ht Hpt. destruct Hs as [(-> & _)|(a & x & y & n & -> & Ha & Hx & Hx2 & HD)]; [contradiction|].
    cbn [or_back]. rewrite or_add by auto. eexists. split; [reflexivity|]. split; [rewrite !blen_cons; reflexivity|].
    unfold ready. rewrite rev_app_distr, rev_involutive. cbn [rev]. rewrite rev_involutive, <- !app_assoc. cbn [app]. split.
    - destruct Ha as (b & r & -> & Hb). eexists _, _. split; [reflexivity|exact Hb].
    - exists n, t. intros rest f Hr. rewrite <- app_assoc. cbn [app]. now apply HD.
  Qed.
  Lemma settled_ready rout p : settled rout p -> rout <> [] -> ready rout p.
  Proof.
    intros Hs Hne. destruct (settled_few rout p 0 Hs Hne ltac:(lia) ltac:(destruct Hs; lia)) as (r' & E & _ & Hr).
    rewrite slice_0 in Hr. cbn [rev app] in Hr. rewrite N.add_0_r in Hr.
    destruct Hs as [Hp Hs]. destruct Hs as [(-> & _)|(a & x & y & n & -> & Ha & Hx & Hx2 & HD)]; [contradiction|].
    cbn [or_back] in E. rewrite or_add in E by (auto; lia). rewrite N.add_0_r in E. injection E as <-. exact Hr.
  Qed.
  (** A match after a ready output. *)
  Lemma ready_match rout q m off a x y : ready rout q -> code_ok m off a x y -> 1 <= off <= q -> q + m <= len ->
    same (q - off) q m -> settled (rev (a ++ [x; y]) ++ rout) (q + m).
  Proof.
    intros (Hl & n & st & HD) HC Ho Hq Hs. split; [exact Hq|]. right.
    exists (rev rout ++ a), x, y, (n + 1)%nat.
    destruct HC as (Hx & Hx2 & Hy & Hcost & HK).
    split; [rewrite !rev_app_distr, rev_involutive; reflexivity|]. split.
    { destruct Hl as (b & r & -> & Hb). eexists _, _. split; [reflexivity|exact Hb]. }
    split; [exact Hx|]. split; [exact Hx2|].
    intros k rest f Hk Hp Hr. rewrite <- Nat.add_assoc, <- app_assoc.
    rewrite HD.
    - cbn [Nat.add]. apply dec_match with (m := m) (off := off); auto. repeat split; auto.
    - rewrite blen_app. cbn [app]. rewrite !blen_cons, blen_app. lia.
  Qed.

  (** ** Literals *)
  Lemma literals_ok rout p t : settled rout p -> (rout <> [] \/ 4 <= t) -> p + t + 20 <= len ->
    blen rout + t + overhead t + 20 <= cc ->
    exists r', literals inp cc rout p t = Val r' /\ ready r' (p + t) /\ blen r' = blen rout + t + overhead t.
  Proof.
    intros Hs Hr Hp Hc. unfold literals.
    destruct (N.eqb_spec t 0) as [->|Ht0].
    { destruct Hr as [Hr|Hr]; [|lia]. exists rout. split; [reflexivity|]. rewrite N.add_0_r.
      split; [now apply settled_ready|]. change (overhead 0) with 0. lia. }
    destruct (N.leb_spec t 3) as [Ht3|Ht3].
    { destruct Hr as [Hr|Hr]; [|lia]. destruct (settled_few rout p t Hs Hr Ht3 ltac:(lia)) as (r' & -> & Lr & Hready). cbn [rbind].
      rewrite rd_slice_ok by lia. cbn [rbind]. rewrite room_ok by lia. cbn [rbind].
      assert (O : overhead t = 0) by (unfold overhead; destruct (N.leb_spec t 3); [reflexivity|lia]).
      rewrite put_ok by (rewrite blen_slice by lia; lia).
      eexists. split; [reflexivity|]. split; [exact Hready|]. unfold blen in *. rewrite app_length, rev_length.
      pose proof (blen_slice p t ltac:(lia)) as Q. unfold blen in Q. lia. }
    assert (O : t <= 18 -> overhead t = 1) by (intro; unfold overhead; destruct (N.leb_spec t 3); [lia|]; destruct (N.leb_spec t 18); [reflexivity|lia]).
    assert (FIN : forall h, lit_head t h -> blen h = overhead t ->
      put cc (rev h ++ rout) (slice inp p t) = Val (rev (slice inp p t) ++ rev h ++ rout) /\
      ready (rev (slice inp p t) ++ rev h ++ rout) (p + t) /\
      blen (rev (slice inp p t) ++ rev h ++ rout) = blen rout + t + overhead t).
    { intros h Hh Lh. pose proof (blen_slice p t ltac:(lia)) as Ls.
      assert (Lr : blen (rev h ++ rout) = blen rout + overhead t) by (unfold blen in *; rewrite app_length, rev_length; lia).
      split; [apply put_ok; lia|]. split; [apply settled_run; auto; lia|].
      unfold blen in *. rewrite app_length, rev_length. lia. }
    destruct (N.leb_spec t 16) as [Ht16|Ht16].
    { rewrite put_ok by (rewrite blen_cons, blen_nil; lia). cbn [rbind]. rewrite rd_slice_ok by lia. cbn [rbind].
      rewrite room_ok by (cbn [rev app]; rewrite blen_cons; lia). cbn [rbind].
      destruct (FIN [t - 3]) as (E1 & E2 & E3); [left; split; [lia|reflexivity]|rewrite O by lia; reflexivity|].
      eauto. }
    destruct (N.leb_spec t 18) as [Ht18|Ht18].
    { rewrite put_ok by (rewrite blen_cons, blen_nil; lia). cbn [rbind]. rewrite rd_slice_ok by lia. cbn [rbind].
      destruct (FIN [t - 3]) as (E1 & E2 & E3); [left; split; [lia|reflexivity]|rewrite O by lia; reflexivity|].
      eauto. }
    destruct (head_ok t ltac:(lia)) as (h & -> & Hh & Lh). cbn [rbind].
    rewrite put_ok by lia. cbn [rbind]. rewrite rd_slice_ok by lia. cbn [rbind].
    destruct (FIN (0 :: h) Hh Lh) as (E1 & E2 & E3). eauto.
  Qed.

  (** ** Match length *)
  Lemma rd_ok i : i < len -> exists b, rd inp i = Val b /\ nth_error inp (N.to_nat i) = Some b.
  Proof.
    intro H. unfold rd. destruct (nth_error inp (N.to_nat i)) as [b|] eqn:E; [eauto|].
    apply nth_error_None in E. unfold len, blen in H. lia.
  Qed.
  Lemma extend_ok ip_end ip m_pos : ip < ip_end -> ip_end + 20 <= len -> m_pos < ip ->
    forall fuel m, 4 <= m -> ip + (m - 1 - (m + 3) mod 8) < ip_end + 4 -> same m_pos ip m -> len < ip + m + N.of_nat fuel ->
    exists m', extend inp fuel ip_end ip m_pos m = Val m' /\ m <= m' /\ ip + m' < ip_end + 12 /\ same m_pos ip m'.
  Proof.
    intros H1 H2 H3. induction fuel as [|f IH]; intros m Hm Hb Hs Hf; [lia|]. cbn [extend].
    destruct ((4 <? m) && (m mod 8 =? 4) && (ip_end <=? ip + m)) eqn:E.
    - exists m. split; [reflexivity|]. split; [lia|]. split; [|exact Hs].
      pose proof (N.mod_lt (m + 3) 8). lia.
    - assert (Hlt : ip + m < ip_end + 12) by (pose proof (N.mod_lt (m + 3) 8); lia).
      destruct (rd_ok (ip + m) ltac:(lia)) as (x & -> & Ex). cbn [rbind].
      destruct (rd_ok (m_pos + m) ltac:(lia)) as (y & -> & Ey). cbn [rbind].
      destruct (N.eqb_spec x y) as [->|N1].
      + destruct (IH (m + 1)) as (m' & E' & L & B & S).
        * lia.
        * destruct (N.ltb_spec 4 m) as [G|G], (N.eqb_spec (m mod 8) 4) as [G2|G2], (N.leb_spec ip_end (ip + m)) as [G3|G3];
            cbn [andb] in E; try discriminate; lia.
        * intros i Hi. destruct (N.eq_dec i m) as [->|]; [congruence|]. apply Hs. lia.
        * lia.
        * exists m'. split; [exact E'|]. split; [lia|]. split; [exact B|exact S].
      + exists m. split; [reflexivity|]. split; [lia|]. split; [lia|exact Hs].
  Qed.

  Lemma slice4 i : i + 4 <= len -> exists a b c d, slice inp i 4 = [a; b; c; d] /\
    nth_error inp (N.to_nat i) = Some a /\ nth_error inp (N.to_nat (i + 1)) = Some b /\
    nth_error inp (N.to_nat (i + 2)) = Some c /\ nth_error inp (N.to_nat (i + 3)) = Some d /\ is_bytes [a; b; c; d].
  Proof.
    intro H. pose proof (blen_slice i 4 H) as L. unfold slice in *. change (N.to_nat 4) with 4%nat in *.
    pose proof (firstn_skipn (N.to_nat i) inp) as E.
    assert (Li : length (firstn (N.to_nat i) inp) = N.to_nat i) by (rewrite firstn_length; unfold len, blen in H; lia).
    assert (HB : is_bytes (skipn (N.to_nat i) inp)) by (rewrite <- E in Hbytes; apply is_bytes_app in Hbytes; tauto).
    assert (Q : forall j, nth_error inp (N.to_nat (i + j)) = nth_error (skipn (N.to_nat i) inp) (N.to_nat j)).
    { intro j. rewrite <- E at 1. rewrite nth_error_app2 by lia. f_equal. lia. }
    destruct (skipn (N.to_nat i) inp) as [|a [|b [|c [|d r]]]]; cbn in L; try (unfold blen in L; cbn in L; lia).
    exists a, b, c, d. split; [reflexivity|].
    pose proof (Q 0) as Q0. rewrite N.add_0_r in Q0. rewrite Q0, !Q. repeat (split; [reflexivity|]).
    do 4 (apply is_bytes_cons in HB as [? HB]). repeat constructor; auto.
  Qed.
  Lemma rd32_ok i : i + 4 <= len -> exists v, rd32 inp i = Val v /\ forall j, j + 4 <= len ->  rd32 inp j = Val v -> same i j 4.
  Proof.
    intro H. destruct (slice4 i H) as (a & b & c & d & E & Ea & Eb & Ec & Ed & HB).
    unfold rd32. rewrite rd_slice_ok by exact H. cbn [rbind]. rewrite E. eexists. split; [reflexivity|].
    intros j Hj. rewrite rd_slice_ok by exact Hj. cbn [rbind].
    destruct (slice4 j Hj) as (a' & b' & c' & d' & -> & Ea' & Eb' & Ec' & Ed' & HB').
    intro V. assert (V' : le_val [a'; b'; c'; d'] = le_val [a; b; c; d]) by congruence. clear V. cbn [le_val] in V'.
    do 4 (apply is_bytes_cons in HB as [? HB]). do 4 (apply is_bytes_cons in HB' as [? HB']).
    assert (a = a') by lia. assert (b = b') by lia. assert (c = c') by lia. assert (d = d') by lia. subst.
    intros k Hk. assert (K : k = 0 \/ k = 1 \/ k = 2 \/ k = 3) by lia.
    destruct K as [->|[->|[->| ->]]]; rewrite ?N.add_0_r; congruence.
  Qed.

  (** ** The scan *)
  (** [p]: how much of the input the output encodes. *)
  Definition good (rout : bytes) (p : N) : Prop := settled rout p /\ 16 * blen rout <= 17 * p.

  Lemma worst_room n : 16 * n <= 17 * len -> n + 40 <= cc.
  Proof. intro H. unfold worst_compress in Hcc. fold len in Hcc. clear - H Hcc. lia. Qed.

  Lemma overhead_bound t : 16 * (t + overhead t) <= 17 * t + 32.
  Proof. unfold overhead. destruct (N.leb_spec t 3); [lia|]. destruct (N.leb_spec t 18); lia. Qed.
  Lemma overhead_match t m : 4 <= m -> 16 * (t + overhead t + (m - 1)) <= 17 * (t + m).
  Proof. intro H. unfold overhead. destruct (N.leb_spec t 3); [lia|]. destruct (N.leb_spec t 18); lia. Qed.

  Lemma scan_ok base ip_end : ip_end + 20 <= len -> ip_end + 20 <= base + 0xC000 ->
    forall fuel dict rout ip ii ti, good rout (ii - ti) -> ti <= ii -> base <= ii -> ii <= ip -> base < ip ->
    (rout <> [] \/ 4 <= ip - (ii - ti)) -> ii <= ip_end + 12 ->
    (forall h, base + dict h < ip) -> ip_end - ip < N.of_nat fuel ->
    exists rout' p, scan inp cc fuel base ip_end dict rout ip ii ti = Val (rout', p) /\ good rout' p /\ p <= ip_end + 12.
  Proof.
    intros HE HB. induction fuel as [|f IH]; intros dict rout ip ii ti Hg Hti Hbi Hii Hbase Hne Hi12 Hd Hf.
    - lia.
    - cbn [scan]. destruct (N.leb_spec ip_end ip).
      + exists rout, (ii - ti). split; [reflexivity|]. split; [exact Hg|]. lia.
      + destruct (rd32_ok ip ltac:(lia)) as (dv & Ev & _). rewrite Ev. cbn [rbind]. cbv zeta.
        set (mp := base + dict (hash dv)). assert (Hmp : mp < ip) by apply Hd.
        destruct (rd32_ok mp ltac:(lia)) as (mv & Em & Hsame). rewrite Em. cbn [rbind].
        destruct (N.eqb_spec dv mv) as [<-|Hneq]; cbn [negb].
        * specialize (Hsame ip ltac:(lia) Ev). set (p := ii - ti) in *. set (t := ip - p).
          destruct Hg as [Hset Hsz].
          assert (Ep : p + t = ip) by lia.
          destruct (literals_ok rout p t Hset) as (r1 & E1 & R1 & L1); [exact Hne|lia| |].
          { pose proof (overhead_bound t). assert (16 * (blen rout + t + overhead t) <= 17 * len + 32) by lia.
            unfold worst_compress in Hcc. fold len in Hcc. clear - H1 Hcc. lia. }
          rewrite E1. cbn [rbind].
          destruct (extend_ok ip_end ip mp ltac:(lia) HE Hmp (S (length inp)) 4) as (m & E2 & M4 & MB & MS); [lia|change ((4 + 3) mod 8) with 7; lia|exact Hsame|unfold len, blen; lia|].
          rewrite E2. cbn [rbind].
          destruct (match_code_ok m (ip - mp)) as (a & x & y & E3 & C3); [unfold len in *; lia|lia|].
          rewrite E3. cbn [rbind].
          assert (Lc : blen (a ++ [x; y]) <= m - 1) by (destruct C3 as (_ & _ & _ & Q & _); lia).
          pose proof (overhead_match t m M4) as OM.
          assert (SZ : 16 * (blen r1 + blen (a ++ [x; y])) <= 17 * (ip + m)) by lia.
          rewrite put_ok by (pose proof (worst_room (blen r1 + blen (a ++ [x; y])) ltac:(lia)); lia). cbn [rbind].
          apply IH.
          -- rewrite N.sub_0_r. split.
             ++ rewrite Ep in R1. apply ready_match with (off := ip - mp); [exact R1|exact C3|lia|lia|].
                replace (ip - (ip - mp)) with mp by lia. exact MS.
             ++ unfold blen in *. rewrite app_length, rev_length. lia.
          -- lia.
          -- lia.
          -- lia.
          -- lia.
          -- left. rewrite rev_app_distr. discriminate.
          -- lia.
          -- intro h. cbv beta. destruct (h =? hash dv); [rewrite N.mod_small by lia; lia|]. specialize (Hd h). lia.
          -- lia.
        * apply IH; auto; try lia.
          -- destruct Hne as [|Hne]; [auto|right; lia].
          -- intro h. cbv beta. destruct (h =? hash dv); [rewrite N.mod_small by lia; lia|]. specialize (Hd h). lia.
  Qed.

  Lemma do_compress_ok base ll ti rout : good rout (base - ti) -> ti <= base -> base + ll <= len -> 21 <= ll <= 0xC000 ->
    exists rout' t, do_compress inp cc base ll ti rout = Val (rout', t) /\ t <= base + ll /\ good rout' (base + ll - t).
  Proof.
    intros Hg Ht Hl Hll. unfold do_compress. cbv zeta.
    set (ip := base + (if ti <? 4 then 4 - ti else 0)).
    destruct (scan_ok base (base + ll - 20) ltac:(lia) ltac:(lia) (S (length inp)) (fun _ => 0) rout
      (ip + (1 + N.shiftr (ip - base) 5)) base ti) as (rout' & p & E & G & B); try lia; auto.
    - right. unfold ip. destruct (N.ltb_spec ti 4); lia.
    - unfold ip, len, blen in *. lia.
    - rewrite E. cbn [rbind]. eexists _, _. split; [reflexivity|]. split; [lia|].
      replace (base + ll - (base + ll - p)) with p by lia. exact G.
  Qed.

  Lemma blocks_ok : forall fuel ip l t rout, good rout (ip - t) -> t <= ip -> ip + l = len -> l < N.of_nat fuel ->
    exists rout' t', blocks inp cc fuel ip l t rout = Val (rout', t') /\ t' <= len /\ good rout' (len - t').
  Proof.
    induction fuel as [|f IH]; intros ip l t rout Hg Ht Hl Hf; [lia|]. cbn [blocks].
    assert (DONE : exists rout' t', Val (rout, t + l) = Val (rout', t') /\ t' <= len /\ good rout' (len - t')).
    { eexists _, _. split; [reflexivity|]. split; [lia|]. replace (len - (t + l)) with (ip - t) by lia. exact Hg. }
    destruct (N.leb_spec l 20); [exact DONE|]. cbv zeta. destruct (_ =? 0); [exact DONE|].
    set (ll := if l <=? 0xC000 then l else 0xC000).
    assert (Hll : 21 <= ll <= 0xC000 /\ ll <= l) by (unfold ll; destruct (N.leb_spec l 0xC000); lia).
    destruct (do_compress_ok ip ll t rout Hg Ht) as (r1 & t1 & E & T1 & G1); [lia|lia|].
    rewrite E. cbn [rbind]. apply IH; [exact G1|lia|lia|lia].
  Qed.

  Lemma finish_ready rout : ready rout len -> exists r, decompress dc (rev rout ++ [17; 0; 0]) = Val r /\ r = Decoded inp.
  Proof.
    intros ((b & r & E & Hb) & n & st & HD).
    destruct (decompress_safe dc (rev rout ++ [17; 0; 0])) as (res & Eres & _). exists res. split; [exact Eres|].
    pose proof (HD [17; 0; 0] 1%nat ltac:(cbn; lia)) as Q. rewrite dec_end, pre_all in Q.
    revert Eres. unfold decompress. rewrite blen_app. change (blen [17; 0; 0]) with 3.
    destruct (N.ltb_spec (blen (rev rout) + 3) 3); [lia|].
    rewrite E in *. cbn [app] in *. destruct (N.ltb_spec 17 b); [lia|].
    intro Eres. destruct (Nat.le_ge_cases (n + 1) (S (length (b :: r ++ [17; 0; 0])))) as [L|L].
    - rewrite (decode_mono dc _ _ _ _ _ _ Q L) in Eres. congruence.
    - pose proof (decode_mono dc _ (n + 1) _ _ _ _ Eres L) as Q2. unfold dec in Q. rewrite Q in Q2. congruence.
  Qed.

  Theorem roundtrip : exists out, compress inp cc = Val out /\ blen out <= worst_compress (blen inp) /\ decompress dc out = Val (Decoded inp).
  Proof.
    unfold compress.
    destruct (blocks_ok (S (length inp)) 0 (blen inp) 0 []) as (rout & t & E & Ht & (Hset & Hsz)).
    - split; [|cbn; lia]. split; [lia|]. left. auto.
    - lia.
    - unfold len. lia.
    - unfold blen. lia.
    - rewrite E. cbn [rbind]. set (p := len - t) in *.
      assert (Hw : forall n, 16 * n <= 17 * len + 100 -> n <= worst_compress (blen inp) /\ n <= cc).
      { intros n Hn. unfold worst_compress in *. fold len in Hcc |- *. clear - Hn Hcc. lia. }
      assert (FIN : forall r, ready r len -> 16 * blen r <= 17 * len + 50 ->
        exists out, (rout0 <- put cc r [17; 0; 0] ;; Val (rev rout0)) = Val out /\ blen out <= worst_compress (blen inp) /\ decompress dc out = Val (Decoded inp)).
      { intros r Hr Hz. destruct (Hw (blen r + 3) ltac:(lia)) as [W1 W2].
        rewrite put_ok by (change (blen [17; 0; 0]) with 3; lia). cbn [rbind]. eexists. split; [reflexivity|].
        rewrite rev_app_distr, rev_involutive. split.
        - unfold blen in *. rewrite app_length, rev_length. cbn [length]. lia.
        - destruct (finish_ready r Hr) as (res & -> & ->). reflexivity. }
      assert (LB : forall l, blen (rev l) = blen l) by (intro; unfold blen; now rewrite rev_length).
      destruct (N.eqb_spec t 0) as [->|Ht0].
      + cbn [rbind]. destruct rout as [|x0 rout].
        * (* empty input *)
          destruct Hset as [_ Hs]. assert (len = 0).
          { destruct Hs as [(_ & Q)|(a & x & y & n & Q & _)]; [unfold p in Q; lia|discriminate]. }
          assert (E0 : inp = []) by (apply length_zero_iff_nil; unfold len, blen in H; lia).
          rewrite put_ok by (cbn; unfold worst_compress in Hcc; lia). cbn [rbind rev app]. eexists. split; [reflexivity|].
          split; [unfold worst_compress; cbn; lia|]. rewrite E0. reflexivity.
        * apply FIN; [|lia]. replace len with p by lia. apply settled_ready; [exact Hset|discriminate].
      + destruct rout as [|x0 rout].
        * (* nothing but literals *)
          assert (Hp0 : p = 0) by (destruct Hset as [_ [(_ & Q)|(a & x & y & n & Q & _)]]; [exact Q|discriminate]).
          assert (Et : t = len) by (unfold p in Hp0; lia).
          replace (blen inp - t) with 0 by (unfold len in Et; lia).
          cbn [andb]. destruct (N.leb_spec t 238) as [T|T].
          -- rewrite put_ok by (change (blen []) with 0; change (blen [(17 + t) mod 256]) with 1; unfold worst_compress in Hcc; lia). cbn [rbind rev app].
             rewrite rd_slice_ok by lia. cbn [rbind].
             assert (Es : slice inp 0 t = inp) by (rewrite Et; exact pre_all).
             rewrite Es. rewrite put_ok by (change (blen [(17 + t) mod 256]) with 1; unfold worst_compress in Hcc; lia). cbn [rbind].
             rewrite put_ok by (rewrite blen_app, LB; change (blen [(17 + t) mod 256]) with 1; change (blen [17; 0; 0]) with 3; unfold worst_compress in Hcc; lia).
             cbn [rbind]. eexists. split; [reflexivity|].
             rewrite !rev_app_distr, !rev_involutive. cbn [rev app].
             rewrite (N.mod_small (17 + t)) by lia. split.
             ++ rewrite blen_cons, blen_app. change (blen [17; 0; 0]) with 3. unfold worst_compress. lia.
             ++ unfold decompress. rewrite blen_cons, blen_app. change (blen [17; 0; 0]) with 3. fold len.
                destruct (N.ltb_spec (1 + (len + 3)) 3); [lia|]. destruct (N.ltb_spec 17 (17 + t)); [|lia].
                replace (17 + t - 17) with len by lia. cbv zeta.
                assert (CI : copy_in dc (N.to_nat len) [] (inp ++ [17; 0; 0]) = Val (inp, [17; 0; 0])).
                { rewrite copy_in_ok; [|rewrite blen_app; fold len; lia|cbn; lia]. cbn [app]. unfold len, blen. rewrite Nnat.Nat2N.id.
                  rewrite firstn_app, firstn_all, Nat.sub_diag, firstn_O, app_nil_r, skipn_app, skipn_all, Nat.sub_diag. reflexivity. }
                destruct (N.ltb_spec (len + 3) (len + 3)); [lia|]. destruct (N.ltb_spec dc len); [unfold len in *; lia|].
                rewrite CI. cbn [rbind]. destruct (len <? 4); apply dec_end.
          -- destruct (N.leb_spec t 3); [lia|]. destruct (N.leb_spec t 18); [lia|].
             destruct (head_ok t ltac:(lia)) as (h & -> & Hh & Lh). cbn [rbind].
             pose proof (overhead_bound t) as OB.
             destruct (Hw (t + overhead t) ltac:(lia)) as [W1 W2].
             rewrite put_ok by (rewrite blen_nil; lia). cbn [rbind]. rewrite rd_slice_ok by lia. cbn [rbind].
             assert (Ls : blen (slice inp 0 t) = t) by (apply blen_slice; lia).
             rewrite put_ok by (rewrite app_nil_r, LB; lia). cbn [rbind].
             apply FIN.
             ++ replace len with (0 + t) by lia. apply settled_run; [|exact Hh|lia]. rewrite <- Hp0. exact Hset.
             ++ rewrite blen_app, LB, app_nil_r, LB. lia.
        * cbn [andb]. set (rr := x0 :: rout) in *. assert (Hrr : rr <> []) by discriminate.
          assert (Ep : p + t = len) by (unfold p; lia).
          assert (Ls : blen (slice inp p t) = t) by (apply blen_slice; lia).
          replace (blen inp - t) with p by (unfold p; reflexivity).
          pose proof (overhead_bound t) as OB.
          destruct (Hw (blen rr + t + overhead t) ltac:(lia)) as [W1 W2].
          destruct (N.leb_spec t 3) as [T3|T3].
          -- destruct (settled_few rr p t Hset Hrr T3 ltac:(lia)) as (r' & -> & Lr & Hready). cbn [rbind].
             rewrite rd_slice_ok by lia. cbn [rbind]. rewrite put_ok by lia. cbn [rbind]. apply FIN.
             ++ now rewrite <- Ep.
             ++ rewrite blen_app, LB. lia.
          -- destruct (N.leb_spec t 18) as [T18|T18].
             ++ assert (O : overhead t = 1) by (unfold overhead; destruct (N.leb_spec t 3); [lia|]; destruct (N.leb_spec t 18); [reflexivity|lia]).
                rewrite put_ok by (change (blen [t - 3]) with 1; lia). cbn [rbind]. rewrite rd_slice_ok by lia. cbn [rbind].
                rewrite put_ok by (rewrite blen_app, LB; change (blen [t - 3]) with 1; lia). cbn [rbind]. apply FIN.
                ** rewrite <- Ep. apply settled_run; [exact Hset|left; split; [lia|reflexivity]|lia].
                ** rewrite !blen_app, !LB. change (blen [t - 3]) with 1. lia.
             ++ destruct (head_ok t ltac:(lia)) as (h & -> & Hh & Lh). cbn [rbind].
                rewrite put_ok by lia. cbn [rbind]. rewrite rd_slice_ok by lia. cbn [rbind].
                rewrite put_ok by (rewrite blen_app, LB; lia). cbn [rbind]. apply FIN.
                ** rewrite <- Ep. apply settled_run; [exact Hset|exact Hh|lia].
                ** rewrite !blen_app, !LB. lia.
  Qed.
End RT.
