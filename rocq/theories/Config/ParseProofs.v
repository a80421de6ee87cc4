(** Proofs about the config parser's leaves: strings, integers, identifiers. *)
From Coq Require Import String.
From Verif Require Import Base.Tactics Base.Bytes Base.Ascii Base.Text Config.RapModel Config.ParseModel Config.ParseSpec.
Local Open Scope N_scope.

Lemma repeated_sat f l r fuel : Forall (fun c => f c = true) l -> (forall c r', r = c :: r' -> f c = false) ->
  (length l < fuel)%nat -> repeated fuel (sat f) (l ++ r) = POk l r.
Proof.
  revert fuel; induction l as [|c l IH]; intros fuel Hl Hr Hf; (destruct fuel as [|fuel]; [cbn in Hf; lia|]); cbn [repeated app].
  - destruct r as [|c r]; cbn [sat]; [reflexivity|]. now rewrite (Hr c r eq_refl).
  - inversion Hl; subst. cbn [sat]. rewrite H1. rewrite IH; auto. cbn in Hf. lia.
Qed.

Lemma starts_with_app w r : starts_with w (w ++ r) = true.
Proof. apply starts_with_spec. eauto. Qed.
Lemma skipn_app_len {A} (w r : list A) : skipn (length w) (w ++ r) = r.
Proof. rewrite skipn_app, skipn_all, Nat.sub_diag. reflexivity. Qed.
Lemma just_app w r : just w (w ++ r) = POk tt r.
Proof. unfold just. now rewrite starts_with_app, skipn_app_len. Qed.
Lemma just1_hit c r : just [c] (c :: r) = POk tt r.
Proof. exact (just_app [c] r). Qed.
Lemma just1_miss c s : (forall r, s <> c :: r) -> just [c] s = PErr.
Proof.
  intro H. unfold just. destruct s as [|x s]; [reflexivity|]. cbn [starts_with].
  destruct (N.eqb_spec c x) as [->|E]; [exfalso; eapply H; reflexivity|]. reflexivity.
Qed.
Lemma trim_start_app w r : blank w -> (forall c r', r = c :: r' -> is_ws c = false) -> trim_start (w ++ r) = r.
Proof.
  induction 1 as [|c w Hc Hw IH]; intro Hr; cbn [app].
  - apply trim_start_nows. exact Hr.
  - cbn [trim_start]. rewrite Hc. auto.
Qed.

(** ** Strings *)
Definition dbl (s : text) : text := flat_map (fun c => if c =? 34 then [34; 34] else [c]) s.

Lemma content_quote r : str_content 34 (34 :: 34 :: r) = POk 34 r.
Proof. reflexivity. Qed.
Lemma content_other c r : c <> 34 -> str_content 34 (c :: r) = POk c r.
Proof. intro H. unfold str_content, alt. cbn [sat]. destruct (N.eqb_spec c 34); [contradiction|reflexivity]. Qed.
Lemma content_end r : (forall r', r <> 34 :: r') -> str_content 34 (34 :: r) = PErr.
Proof.
  intro H. unfold str_content, alt. cbn [sat]. rewrite N.eqb_refl. cbn [negb]. unfold pmap, pbind, just.
  destruct r as [|x r]; [reflexivity|]. cbn [starts_with].
  destruct (N.eqb_spec 34 x) as [<-|E]; [exfalso; eapply H; reflexivity|]. reflexivity.
Qed.
Lemma content_repeat s r fuel : (forall r', r <> 34 :: r') -> (length s < fuel)%nat ->
  repeated fuel (str_content 34) (dbl s ++ 34 :: r) = POk s (34 :: r).
Proof.
  intro Hr. revert fuel; induction s as [|c s IH]; intros fuel Hf; (destruct fuel as [|fuel]; [cbn in Hf; lia|]).
  - cbn [dbl flat_map app repeated]. now rewrite content_end.
  - cbn in Hf. cbn [dbl flat_map]. fold (dbl s). destruct (N.eqb_spec c 34) as [->|E]; cbn [app repeated].
    + rewrite content_quote, IH by lia. reflexivity.
    + rewrite content_other, IH by (auto; lia). reflexivity.
Qed.

Lemma dbl_length s : (length s <= length (dbl s))%nat.
Proof. induction s as [|c s IH]; [cbn; lia|]. cbn [dbl flat_map]. fold (dbl s). rewrite app_length. destruct (c =? 34); cbn; lia. Qed.

Lemma quoted_dbl s r : quoted s ++ r = 34 :: dbl s ++ 34 :: r.
Proof. unfold quoted. cbn [app]. rewrite <- app_assoc. reflexivity. Qed.

Lemma segment_ok s r : (forall r', r <> 34 :: r') -> str_segment 34 (quoted s ++ r) = POk s r.
Proof.
  intro Hr. rewrite quoted_dbl. unfold str_segment, pbind. rewrite just1_hit.
  rewrite content_repeat; [|exact Hr|rewrite app_length; pose proof (dbl_length s); lia].
  rewrite just1_hit. reflexivity.
Qed.

Lemma segment_needs_quote s : (forall r, s <> 34 :: r) -> str_segment 34 s = PErr.
Proof. intro H. unfold str_segment, pbind. now rewrite just1_miss. Qed.

Lemma sep_hit w1 w2 r : blank w1 -> blank w2 -> (forall c r', r = c :: r' -> is_ws c = false) ->
  padded (just (bs "\n")) (w1 ++ bs "\n" ++ w2 ++ r) = POk tt r.
Proof.
  intros H1 H2 Hr. unfold padded. rewrite trim_start_app; [|exact H1|].
  - rewrite just_app. now rewrite trim_start_app.
  - intros c r' E. cbn in E. injection E as <- _. reflexivity.
Qed.

(** What a separator that is read looks like. *)
Lemma sep_inv s x r : padded (just (bs "\n")) s = POk x r -> exists w1 w2, blank w1 /\ blank w2 /\ s = w1 ++ bs "\n" ++ w2 ++ r.
Proof.
  unfold padded. destruct (trim_start_suffix s) as (w1 & E1 & F1).
  destruct (just (bs "\n") (trim_start s)) as [y r1| | | |] eqn:E; try discriminate.
  intro H. assert (Hr : r = trim_start r1) by congruence.
  unfold just in E. destruct (starts_with (bs "\n") (trim_start s)) eqn:Es; [|discriminate].
  apply starts_with_spec in Es as [r2 Es]. rewrite Es in E, E1. rewrite skipn_app_len in E.
  assert (r1 = r2) by congruence. subst r1. destruct (trim_start_suffix r2) as (w2 & E2 & F2).
  exists w1, w2. split; [exact F1|]. split; [exact F2|]. rewrite Hr. congruence.
Qed.
Lemma sep_outcome s : (exists r, padded (just (bs "\n")) s = POk tt r) \/ padded (just (bs "\n")) s = PErr.
Proof.
  unfold padded, just. destruct (starts_with _ (trim_start s)); eauto.
Qed.

Lemma sep_tail_end fuel rest : literal_ends rest -> (0 < fuel)%nat ->
  sep_tail fuel (str_segment 34) (padded (just (bs "\n"))) rest = POk [] rest.
Proof.
  intros [Hq Hc] Hf. destruct fuel; [lia|]. cbn [sep_tail].
  destruct (sep_outcome rest) as [[r E]|E]; rewrite E; [|reflexivity].
  destruct (sep_inv _ _ _ E) as (w1 & w2 & H1 & H2 & Er).
  rewrite segment_needs_quote; [reflexivity|].
  intros r' ->. exact (Hc w1 w2 r' H1 H2 Er).
Qed.

Lemma literal_head segs t : literal segs t -> exists r, t = 34 :: r.
Proof. intros [s|s w1 w2 segs' t' H1 H2 Hl]; [|rewrite quoted_dbl]; eauto. unfold quoted. cbn [app]. eauto. Qed.

Lemma literal_len segs t : literal segs t -> (length segs <= length t)%nat.
Proof. induction 1; unfold quoted in *; cbn [app length]; rewrite ?app_length; cbn [length]; rewrite ?app_length; cbn [length]; lia. Qed.

Lemma not_quote_sep w1 w2 t : blank w1 -> forall r', w1 ++ bs "\n" ++ w2 ++ t <> 34 :: r'.
Proof.
  intros H r' E. destruct w1 as [|c w1]; cbn in E; [discriminate|].
  injection E as -> _. inversion H as [|? ? Hc]. discriminate.
Qed.

Lemma sep_tail_lit segs t rest : literal segs t -> literal_ends rest ->
  forall w1 w2 fuel, blank w1 -> blank w2 -> (length segs < fuel)%nat ->
  sep_tail fuel (str_segment 34) (padded (just (bs "\n"))) (w1 ++ bs "\n" ++ w2 ++ t ++ rest) = POk segs rest.
Proof.
  induction 1 as [s|s v1 v2 segs t Hv1 Hv2 Hl IH]; intros He w1 w2 fuel H1 H2 Hf;
    (destruct fuel as [|fuel]; [lia|]); cbn [sep_tail].
  - rewrite sep_hit; auto; [|unfold quoted; intros c r' E; cbn [app] in E; injection E as <- _; reflexivity].
    rewrite segment_ok by apply He. rewrite sep_tail_end; auto. cbn in Hf. lia.
  - rewrite sep_hit; auto; [|unfold quoted; intros c r' E; cbn [app] in E; injection E as <- _; reflexivity].
    replace ((quoted s ++ v1 ++ bs "\n" ++ v2 ++ t) ++ rest) with (quoted s ++ v1 ++ bs "\n" ++ v2 ++ t ++ rest)
      by (rewrite <- !app_assoc; reflexivity).
    rewrite segment_ok by (apply not_quote_sep; auto).
    rewrite IH; auto. cbn in Hf. lia.
Qed.

Lemma drop_spec s : unfolded s (drop_continuations s).
Proof.
  enough (K : forall n s, (length s <= n)%nat -> unfolded s (drop_continuations s)) by (eapply K; eauto).
  clear s. induction n as [|n IH]; intros s Hn.
  - destruct s; [constructor|cbn in Hn; lia].
  - destruct s as [|c [|c2 r]]; cbn [drop_continuations]; [constructor| |].
    + apply un_char; [constructor|]. discriminate.
    + cbn in Hn. destruct (N.eqb_spec c 92) as [->|E1]; cbn [andb].
      * destruct (N.eqb_spec c2 10) as [->|E2].
        -- apply un_cont. apply IH. lia.
        -- apply un_char; [apply IH; cbn; lia|]. intros _ r' E. congruence.
      * apply un_char; [apply IH; cbn; lia|]. contradiction.
Qed.
Lemma unfolded_det s t : unfolded s t -> forall t', unfolded s t' -> t = t'.
Proof.
  induction 1 as [|r t H IH|c r t H IH Hc]; intros t' H'; inversion H'; subst; auto.
  - exfalso. match goal with K : 92 = 92 -> _ |- _ => eapply K; reflexivity end.
  - exfalso. eapply Hc; reflexivity.
  - f_equal. auto.
Qed.

Lemma string_ok segs t rest : literal segs t -> literal_ends rest ->
  string_lit 34 (t ++ rest) = POk (drop_continuations (join [10] segs)) rest.
Proof.
  intros Hl He. unfold string_lit, pmap, pbind, at_least, separated_by.
  pose proof (literal_len _ _ Hl) as HL.
  destruct Hl as [s|s w1 w2 segs t H1 H2 Hl].
  - rewrite segment_ok by apply He. rewrite sep_tail_end by (auto; lia). reflexivity.
  - replace ((quoted s ++ w1 ++ bs "\n" ++ w2 ++ t) ++ rest) with (quoted s ++ w1 ++ bs "\n" ++ w2 ++ t ++ rest)
      by (rewrite <- !app_assoc; reflexivity).
    rewrite segment_ok by (apply not_quote_sep; auto).
    rewrite (sep_tail_lit segs t rest Hl He); auto.
    rewrite !app_length in *. cbn [length] in *. lia.
Qed.

(** ** Numbers *)
Lemma spells_digits10 ds v : spells 10 ds v -> all_digits ds.
Proof.
  induction 1 as [|ds v c d H IH Hd Hb]; [constructor|]. apply Forall_app. split; [exact IH|].
  constructor; [|constructor]. unfold is_digit. destruct Hd as [[? ->]|[? _]]; [|lia].
  apply andb_true_intro. split; apply N.leb_le; lia.
Qed.
Lemma hex_digit c d : digit c d -> hex_val c = Some d.
Proof.
  unfold hex_val, is_digit. intros [[H ->]|[H [-> | ->]]].
  - replace ((48 <=? 48 + d) && (48 + d <=? 57)) with true by (symmetry; apply andb_true_intro; split; apply N.leb_le; lia).
    f_equal. lia.
  - replace ((48 <=? 97 + (d - 10)) && (97 + (d - 10) <=? 57)) with false by (symmetry; apply andb_false_iff; right; apply N.leb_gt; lia).
    replace ((97 <=? 97 + (d - 10)) && (97 + (d - 10) <=? 102)) with true by (symmetry; apply andb_true_intro; split; apply N.leb_le; lia).
    f_equal. lia.
  - replace ((48 <=? 65 + (d - 10)) && (65 + (d - 10) <=? 57)) with false by (symmetry; apply andb_false_iff; right; apply N.leb_gt; lia).
    replace ((97 <=? 65 + (d - 10)) && (65 + (d - 10) <=? 102)) with false by (symmetry; apply andb_false_iff; left; apply N.leb_gt; lia).
    replace ((65 <=? 65 + (d - 10)) && (65 + (d - 10) <=? 70)) with true by (symmetry; apply andb_true_intro; split; apply N.leb_le; lia).
    f_equal. lia.
Qed.
Definition is_hex (c : N) : bool := match hex_val c with Some _ => true | None => false end.
Lemma spells_hex base ds v : spells base ds v -> Forall (fun c => is_hex c = true) ds.
Proof.
  induction 1 as [|ds v c d H IH Hd Hb]; [constructor|]. apply Forall_app. split; [exact IH|].
  constructor; [|constructor]. unfold is_hex. now rewrite (hex_digit _ _ Hd).
Qed.
Lemma is_hex_ident c : is_hex c = true -> ident_char c = true.
Proof.
  unfold is_hex, hex_val, ident_char. destruct (is_digit c); [reflexivity|].
  destruct ((97 <=? c) && (c <=? 102)) eqn:E1; [intros _|].
  { apply andb_true_iff in E1 as [A B]. apply N.leb_le in A, B.
    replace (c <=? 122) with true by (symmetry; apply N.leb_le; lia). rewrite (proj2 (N.leb_le 97 c)) by lia. reflexivity. }
  destruct ((65 <=? c) && (c <=? 70)) eqn:E2; [intros _|discriminate].
  apply andb_true_iff in E2 as [A B]. apply N.leb_le in A, B.
  rewrite (proj2 (N.leb_le 65 c)), (proj2 (N.leb_le c 90)) by lia. cbn. now rewrite orb_true_r.
Qed.

Lemma ends_spec rest : number_ends rest -> forall c r, rest = c :: r -> ident_char c = false /\ c <> 46.
Proof.
  intros H c r ->. cbn in H. unfold ident_char, is_digit. split; [|lia].
  destruct (48 <=? c) eqn:A1, (c <=? 57) eqn:A2, (97 <=? c) eqn:A3, (c <=? 122) eqn:A4, (65 <=? c) eqn:A5, (c <=? 90) eqn:A6, (c =? 95) eqn:A7;
    cbn [andb orb]; try reflexivity; exfalso; apply H; lia.
Qed.
Lemma ident_digit c : is_digit c = true -> ident_char c = true.
Proof. unfold ident_char. intros ->. reflexivity. Qed.

Lemma digits_ok ds rest : all_digits ds -> ds <> [] -> (forall c r, rest = c :: r -> is_digit c = false) ->
  number_digits (ds ++ rest) = POk ds rest.
Proof.
  intros Hd Hne Hr. unfold number_digits, at_least. rewrite repeated_sat; auto; [|rewrite app_length; lia].
  destruct ds; [contradiction|reflexivity].
Qed.
Lemma digits_miss s : (forall c r, s = c :: r -> is_digit c = false) -> number_digits s = PErr.
Proof.
  intro H. unfold number_digits, at_least.
  pose proof (repeated_sat is_digit [] s (S (length s)) ltac:(constructor) H ltac:(cbn; lia)) as K. cbn [app] in K. now rewrite K.
Qed.

Lemma radix_total base ds v : spells base ds v -> 1 <= base ->
  radix_val base 0 ds = if v <=? 9223372036854775807 then Some v else None.
Proof.
  intros H Hb.
  assert (A : forall a b acc, radix_val base acc (a ++ b) = match radix_val base acc a with Some x => radix_val base x b | None => None end).
  { induction a as [|c a IHa]; intros b acc; cbn [app radix_val]; [reflexivity|].
    destruct (hex_val c); [|reflexivity]. destruct (_ <=? _); [apply IHa|reflexivity]. }
  induction H as [|ds v c d H IH Hd Hlt]; [reflexivity|].
  rewrite A, IH. destruct (N.leb_spec v 9223372036854775807) as [L|L].
  - cbn [radix_val]. rewrite (hex_digit _ _ Hd). reflexivity.
  - destruct (N.leb_spec (v * base + d) 9223372036854775807); [nia|reflexivity].
Qed.

Section Numbers.
  Context (f32_parse : text -> option N).

  Lemma just0x_miss ds rest : all_digits ds -> number_ends rest -> just (bs "0x") (ds ++ rest) = PErr.
  Proof.
    intros Hd He. unfold just. change (bs "0x") with [48; 120].
    destruct ds as [|a [|b ds]]; cbn [app starts_with].
    - destruct rest as [|c r]; [reflexivity|]. destruct (ends_spec _ He c r eq_refl) as [H _].
      destruct (N.eqb_spec 48 c) as [<-|]; [discriminate|reflexivity].
    - destruct rest as [|c r]; [destruct (48 =? a); reflexivity|]. destruct (ends_spec _ He c r eq_refl) as [H _].
      destruct (48 =? a); [|reflexivity]. cbn [andb]. destruct (N.eqb_spec 120 c) as [<-|]; [discriminate|reflexivity].
    - inversion Hd as [|? ? _ Hd2]; subst. inversion Hd2; subst. destruct (48 =? a); [|reflexivity].
      cbn [andb]. destruct (N.eqb_spec 120 b) as [<-|]; [discriminate|reflexivity].
  Qed.

  (** Both float readers refuse digits followed by something that is no dot and no exponent. *)
  Definition no_float (s : text) : Prop := match s with [] => True | c :: _ => is_digit c = false /\ c <> 46 /\ c <> 101 /\ c <> 69 end.
  Lemma no_float_ends rest : number_ends rest -> no_float rest.
  Proof.
    intro H. destruct rest as [|c r]; [exact I|]. destruct (ends_spec _ H c r eq_refl) as [A B]. cbn.
    repeat split; auto; try (intros ->; discriminate).
    destruct (is_digit c) eqn:E; [|reflexivity]. rewrite ident_digit in A by auto. discriminate.
  Qed.
  Lemma floats_miss ds rest : all_digits ds -> ds <> [] -> no_float rest ->
    number_float_exponent f32_parse (ds ++ rest) = PErr /\ number_float_basic f32_parse (ds ++ rest) = PErr.
  Proof.
    intros Hd Hne He.
    assert (Hr : forall c r, rest = c :: r -> is_digit c = false) by (intros c r ->; apply He).
    assert (Hdot : just [46] rest = PErr) by (apply just1_miss; intros r ->; destruct He as (_ & He & _); apply He; reflexivity).
    assert (K : or_not (ds0 <-- number_digits ;; _ <-- just [46] ;; pret (ds0 ++ [46])) (ds ++ rest) = POk None (ds ++ rest)).
    { unfold or_not, pbind. rewrite digits_ok by auto. rewrite Hdot. reflexivity. }
    split.
    - unfold number_float_exponent, ptry. unfold pbind at 1. rewrite K. unfold pbind at 1. rewrite digits_ok by auto.
      unfold pbind at 1. unfold one_char, pmap. unfold pbind at 1.
      destruct rest as [|c r]; [reflexivity|]. cbn [sat]. destruct He as (_ & _ & H1 & H2).
      destruct (N.eqb_spec c 101); [contradiction|]. destruct (N.eqb_spec c 69); [contradiction|]. reflexivity.
    - unfold number_float_basic, ptry. unfold pbind at 1. unfold or_not. rewrite digits_ok by auto.
      unfold pbind at 1. rewrite Hdot. reflexivity.
  Qed.

  Definition int_result (neg : bool) (v : N) (rest : text) : pres number :=
    if v <=? 2147483647 then POk (Int32 (signed neg v)) rest
    else if v <=? 9223372036854775807 then POk (Int64 (signed neg v)) rest
    else PErr.

  Lemma int_number_sign v neg : v <= 9223372036854775807 ->
    (if neg : bool then negate (int_number v) else int_number v)
    = if v <=? 2147483647 then Int32 (signed neg v) else Int64 (signed neg v).
  Proof.
    intro H. unfold int_number. destruct (N.ltb_spec 2147483647 v), (N.leb_spec v 2147483647); try lia; destruct neg; reflexivity.
  Qed.

  Lemma sign_or_not neg s : (forall r, s <> 45 :: r) ->
    or_not (just [45]) (sign_text neg ++ s) = POk (if neg then Some tt else None) s.
  Proof.
    intro H. unfold or_not, sign_text. destruct neg.
    - change (bs "-" ++ s) with (45 :: s). now rewrite just1_hit.
    - cbn [app]. now rewrite just1_miss.
  Qed.

  Lemma digits_no_minus ds rest : all_digits ds -> ds <> [] -> forall r, ds ++ rest <> 45 :: r.
  Proof.
    intros Hd Hne r E. destruct ds as [|c ds]; [contradiction|]. cbn in E. inversion Hd; subst.
    injection E as -> _. discriminate.
  Qed.

  Lemma number_int_ok neg ds v rest : spells 10 ds v -> ds <> [] -> number_ends rest ->
    number_lit f32_parse (sign_text neg ++ ds ++ rest) = int_result neg v rest.
  Proof.
    intros Hs Hne He. pose proof (spells_digits10 _ _ Hs) as Hd.
    assert (Hr : forall c r, rest = c :: r -> is_digit c = false).
    { intros c r E. destruct (ends_spec _ He c r E) as [A _]. destruct (is_digit c) eqn:E2; [|reflexivity].
      rewrite ident_digit in A by auto. discriminate. }
    destruct (floats_miss ds rest Hd Hne (no_float_ends _ He)) as [F1 F2].
    unfold number_lit. unfold pbind at 1. rewrite sign_or_not by (apply digits_no_minus; auto).
    unfold pbind at 1. unfold alt, pmap. unfold pbind at 1 2 3. rewrite F1, F2.
    unfold number_hex, ptry. unfold pbind at 1. rewrite just0x_miss by auto.
    unfold pbind at 1. unfold number_int, ptry. rewrite digits_ok by auto.
    rewrite (radix_total 10 ds v Hs) by lia.
    unfold int_result. destruct (N.leb_spec v 9223372036854775807) as [L|L].
    - unfold pret. pose proof (int_number_sign v neg L) as K. destruct neg; rewrite K; destruct (v <=? 2147483647); reflexivity.
    - destruct (N.leb_spec v 2147483647); [lia|reflexivity].
  Qed.

  Lemma number_hex_ok neg ds v rest : spells 16 ds v -> ds <> [] -> number_ends rest ->
    number_lit f32_parse (sign_text neg ++ bs "0x" ++ ds ++ rest) =
    match int_result neg v rest with
    | PErr => POk (Int32 0) (bs "x" ++ ds ++ rest)
    | r => r
    end.
  Proof.
    intros Hs Hne He. pose proof (spells_hex _ _ _ Hs) as Hd.
    assert (Hr : forall c r, rest = c :: r -> is_hex c = false).
    { intros c r E. destruct (ends_spec _ He c r E) as [A _]. destruct (is_hex c) eqn:E2; [|reflexivity].
      rewrite is_hex_ident in A by auto. discriminate. }
    change (bs "0x" ++ ds ++ rest) with ([48] ++ bs "x" ++ ds ++ rest).
    assert (H0 : all_digits [48]) by (repeat constructor).
    destruct (floats_miss [48] (bs "x" ++ ds ++ rest) H0 ltac:(discriminate)) as [F1 F2].
    { cbn. repeat split; discriminate. }
    unfold number_lit. unfold pbind at 1. rewrite sign_or_not by (apply digits_no_minus; [auto|discriminate]).
    unfold pbind at 1. unfold alt, pmap. unfold pbind at 1 2 3 4. rewrite F1, F2.
    unfold number_hex, ptry. unfold pbind at 1.
    change ([48] ++ bs "x" ++ ds ++ rest) with (bs "0x" ++ ds ++ rest) at 1. rewrite just_app.
    unfold at_least. fold is_hex. rewrite (repeated_sat is_hex); auto; [|rewrite app_length; lia].
    replace (length ds <? 1)%nat with false by (destruct ds; [contradiction|reflexivity]).
    rewrite (radix_total 16 ds v Hs) by lia.
    unfold int_result. destruct (N.leb_spec v 9223372036854775807) as [L|L].
    - unfold pret. pose proof (int_number_sign v neg L) as K. destruct neg; rewrite K; destruct (v <=? 2147483647); reflexivity.
    - destruct (N.leb_spec v 2147483647); [lia|].
      unfold number_int, ptry. rewrite digits_ok; [|exact H0|discriminate|].
      + cbn [radix_val]. change (hex_val 48) with (Some 0). cbn. destruct neg; reflexivity.
      + intros c r E. cbn in E. injection E as <- _. reflexivity.
  Qed.
End Numbers.
