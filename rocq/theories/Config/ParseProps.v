(** C14, C15 and C45: strings, integers and whole configs parse to what they say. *)
From Coq Require Import String.
From Verif Require Import Base.Tactics Base.Bytes Base.Ascii Base.Text Config.RapModel Config.ParseModel
  Config.ParseSpec Config.ParseProofs Config.GrammarSpec Config.GrammarProofs.
Local Open Scope N_scope.

(** ** C14 *)
(** A literal of any number of segments is the segments joined by line breaks with line continuations
    removed, and nothing after it is consumed. *)
Theorem C14_string_literal : forall segs t rest s,
  literal segs t -> literal_ends rest -> unfolded (join [10] segs) s ->
  string_lit 34 (t ++ rest) = POk s rest.
Proof.
  intros segs t rest s Hl He Hu. rewrite (string_ok segs t rest Hl He). f_equal.
  eapply unfolded_det; [apply drop_spec|exact Hu].
Qed.
Print Assumptions C14_string_literal.

Lemma unfolded_id s : (forall a b, s <> a ++ [92; 10] ++ b) -> unfolded s s.
Proof.
  induction s as [|c s IH]; intro H; [constructor|]. constructor.
  - apply IH. intros a b E. apply (H (c :: a) b). now rewrite E.
  - intros -> r' E. apply (H [] r'). now rewrite E.
Qed.

(** One segment: quoting a string and parsing it gives the string back, whatever it contains, as long as no
    line break directly follows a backslash in it. *)
Theorem C14_quoted_string : forall s rest,
  (forall a b, s <> a ++ [92; 10] ++ b) -> literal_ends rest ->
  string_lit 34 (quoted s ++ rest) = POk s rest.
Proof. intros s rest Hs He. apply (C14_string_literal [s]); [constructor|exact He|]. cbn [join]. now apply unfolded_id. Qed.
Print Assumptions C14_quoted_string.

(** The exception: the backslash and the line break are both lost, also when the line break is the one that
    joins two segments: "dir\" \n "file" says dirfile. *)
Theorem C14_backslash_before_break_refuted :
  string_lit 34 (quoted [65; 92; 10; 66] ++ bs ";") = POk [65; 66] (bs ";") /\
  string_lit 34 (quoted (bs "dir\") ++ bs " \n " ++ quoted (bs "file") ++ bs ";") = POk (bs "dirfile") (bs ";").
Proof. split; vm_compute; reflexivity. Qed.
Print Assumptions C14_backslash_before_break_refuted.

(** A Windows path with quotes in it, and a two-line text. *)
Example C14_applies :
  string_lit 34 (quoted (bs "\a3\""x""\") ++ bs "; more") = POk (bs "\a3\""x""\") (bs "; more") /\
  string_lit 34 (quoted (bs "a") ++ bs " \n" ++ quoted [98; 34] ++ bs ",") = POk [97; 10; 98; 34] (bs ",").
Proof.
  assert (LE : forall c r, c = 59 \/ c = 44 -> literal_ends (c :: r)).
  { intros c r Hc. split; [intros r0 E; injection E as -> _; lia|].
    intros w1 w2 r0 H1 H2 E. destruct w1 as [|x w1].
    - cbn in E. injection E as -> _. lia.
    - cbn in E. injection E as -> _. inversion H1 as [|? ? Hx]. destruct Hc as [->| ->]; discriminate. }
  split.
  - apply C14_quoted_string; [|apply LE; auto].
    intros a b E. assert (In 10 (bs "\a3\""x""\")) by (rewrite E; apply in_or_app; right; cbn; auto).
    cbn in H. repeat (destruct H as [H|H]; [discriminate|]). exact H.
  - replace (quoted (bs "a") ++ bs " \n" ++ quoted [98; 34] ++ bs ",") with ((quoted (bs "a") ++ [32] ++ bs "\n" ++ [] ++ quoted [98; 34]) ++ bs ",")
      by reflexivity.
    apply (C14_string_literal [bs "a"; [98; 34]]); [|apply LE; auto|].
    + apply lit_more; [repeat constructor|constructor|constructor].
    + repeat (constructor; try (intros E; discriminate)).
Qed.

(** ** C15 *)
(** [f32_parse] is only consulted for literals with a point or an exponent. *)
Theorem C15_integers : forall f32_parse base prefix ds v neg rest,
  base = 10 /\ prefix = [] \/ base = 16 /\ prefix = bs "0x" ->
  spells base ds v -> ds <> [] -> number_ends rest ->
  (v < 2 ^ 31 -> number_lit f32_parse (sign_text neg ++ prefix ++ ds ++ rest) = POk (Int32 (signed neg v)) rest) /\
  (2 ^ 31 <= v < 2 ^ 63 -> number_lit f32_parse (sign_text neg ++ prefix ++ ds ++ rest) = POk (Int64 (signed neg v)) rest) /\
  (2 ^ 63 <= v -> base = 10 -> number_lit f32_parse (sign_text neg ++ prefix ++ ds ++ rest) = PErr).
Proof.
  intros fp base prefix ds v neg rest Hb Hs Hne He.
  destruct Hb as [[-> ->]|[-> ->]].
  - rewrite app_nil_l, (number_int_ok fp neg ds v rest Hs Hne He). unfold int_result.
    repeat split; intros; destruct (N.leb_spec v 2147483647), (N.leb_spec v 9223372036854775807); try lia; reflexivity.
  - rewrite (number_hex_ok fp neg ds v rest Hs Hne He). unfold int_result.
    repeat split; intros; destruct (N.leb_spec v 2147483647), (N.leb_spec v 9223372036854775807); try lia; reflexivity.
Qed.
Print Assumptions C15_integers.

(** The edges: the smallest 32 bit integer is stored in 64 bits, the smallest 64 bit integer cannot be written,
    and an overlong hexadecimal literal is read as zero with the rest left over. *)
Theorem C15_edges_refuted : forall f32_parse,
  number_lit f32_parse (bs "-2147483648;") = POk (Int64 (- 2 ^ 31)) (bs ";") /\
  number_lit f32_parse (bs "-9223372036854775808;") = PErr /\
  number_lit f32_parse (bs "0x8000000000000000;") = POk (Int32 0) (bs "x8000000000000000;").
Proof. intro. repeat split; vm_compute; reflexivity. Qed.
Print Assumptions C15_edges_refuted.

Example C15_applies : spells 16 (bs "7fFf") 32767 /\ number_ends (bs " ;") /\ spells 10 (bs "0012") 12.
Proof.
  split; [|split; [cbn; lia|]].
  - change (bs "7fFf") with (((([] ++ [55]) ++ [102]) ++ [70]) ++ [102]).
    change 32767 with ((((0 * 16 + 7) * 16 + 15) * 16 + 15) * 16 + 15).
    repeat (eapply sp_digit; [|unfold digit; lia|lia]). constructor.
  - change (bs "0012") with (((([] ++ [48]) ++ [48]) ++ [49]) ++ [50]).
    change 12 with ((((0 * 10 + 0) * 10 + 0) * 10 + 1) * 10 + 2).
    repeat (eapply sp_digit; [|unfold digit; lia|lia]). constructor.
Qed.

(** ** C45 *)
(** Every text of the grammar parses, completely and without error, to the tree the grammar assigns to it.
    [f32_parse], [f32_show] and [try_eval] stand for the float functions and for the evaluation of an
    arithmetic expression; a number is followed by a space only if evaluating it does not change it. *)
Definition denotes (f32_parse : text -> option N) (t : text) (b : N) : Prop := f32_parse t = Some b.
Definition kept (f32_show : N -> text) (try_eval : text -> option number) (n : number) : Prop :=
  try_eval (trim (show_number f32_show n)) = Some n \/ try_eval (trim (show_number f32_show n)) = None.

Theorem C45_config_parses : forall f32_parse f32_show try_eval c t,
  config_text (denotes f32_parse) (kept f32_show try_eval) c t ->
  parse_config f32_parse f32_show try_eval t = POk c [].
Proof. intros fp fs te c t H. exact (config_ok_text fp fs te c t H). Qed.
Print Assumptions C45_config_parses.

(** So no text says two things. *)
Theorem C45_unambiguous : forall f32_parse f32_show try_eval c c' t,
  config_text (denotes f32_parse) (kept f32_show try_eval) c t ->
  config_text (denotes f32_parse) (kept f32_show try_eval) c' t -> c = c'.
Proof.
  intros fp fs te c c' t H H'. pose proof (C45_config_parses _ _ _ _ _ H) as E.
  rewrite (C45_config_parses _ _ _ _ _ H') in E. congruence.
Qed.
Print Assumptions C45_unambiguous.

(** The exceptions. A space after a number sends it through the expression evaluator, which may change its type;
    an expression without parentheses stops the program. *)
Theorem C45_space_changes_number_refuted : forall f32_parse f32_show try_eval b m,
  f32_parse (bs "1.0") = Some b -> try_eval (trim (f32_show b)) = Some m ->
  parse_config f32_parse f32_show try_eval (bs "x=1.0;") = POk [Entry (bs "x") (VNum (Float32 b)) false] [] /\
  parse_config f32_parse f32_show try_eval (bs "x=1.0 ;") = POk [Entry (bs "x") (VNum m) false] [].
Proof.
  intros fp fs te b m H1 H2. split.
  - apply C45_config_parses. exists [], (bs "x=1.0;"). split; [reflexivity|]. split; [constructor|].
    change (bs "x=1.0;") with ((bs "x" ++ [] ++ bs "=" ++ [] ++ (bs "1" ++ bs "." ++ bs "0") ++ [] ++ bs ";") ++ [] ++ []).
    constructor; [|constructor|constructor]. apply pt_value; [|constructor|constructor|constructor|apply vt_num].
    + split; [discriminate|]. repeat constructor; cbn; lia.
    + apply nt_pos. apply nt_float; [left; split; [discriminate|repeat constructor; cbn; lia]| |exact H1].
      split; [discriminate|repeat constructor; cbn; lia].
    + intros [r E]. discriminate.
  - assert (NT : number_text (denotes fp) (Float32 b) (bs "1.0")).
    { constructor. apply (nt_float _ (bs "1") (bs "0")); [left; split; [discriminate|repeat constructor; cbn; lia]| |exact H1].
      split; [discriminate|repeat constructor; cbn; lia]. }
    assert (M : math fp fs te (bs "1.0 ;") = POk m (bs ";")).
    { pose proof (number_ok fp fs te (Float32 b) (bs "1.0") (bs " ;") NT ltac:(cbn; lia)) as HN.
      change (bs "1.0" ++ bs " ;") with (bs "1.0 ;") in HN.
      unfold math, ptry, at_least. change (S (length (bs "1.0 ;"))) with 6%nat. cbn [repeated].
      unfold math_token at 1, alt, pmap. unfold pbind at 1. rewrite HN. unfold pret at 1.
      change (bs " ;") with (32 :: bs ";"). rewrite math_space. change (bs ";") with [59].
      rewrite math_stop by reflexivity. cbn [length Nat.ltb Nat.leb concat].
      change (show_number fs (Float32 b)) with (fs b). rewrite app_nil_r.
      pose proof (trim_spaces (fs b) 1) as T. cbn [repeat] in T. rewrite T, H2. reflexivity. }
    unfold parse_config, alt, at_end. unfold pbind at 1. change (S (length (bs "x=1.0 ;"))) with 8%nat.
    change (repeated 8 ?p) with (fun s => repeated 8 p s). cbn [repeated]. unfold padded at 1.
    change (trim_start (bs "x=1.0 ;")) with (bs "x" ++ [] ++ 61 :: bs "1.0 ;").
    rewrite (finish fp fs te 7 (Entry (bs "x") (VNum m) false) _ [] []); [reflexivity| |constructor].
    apply entry_shape; [split; [discriminate|repeat constructor; cbn; lia]|constructor|reflexivity|reflexivity|].
    unfold entry_value, por. unfold pbind at 1. rewrite brackets_eq. unfold pbind at 1.
    change (padded (just (bs "=")) (61 :: bs "1.0 ;")) with (@POk unit tt (bs "1.0 ;")). cbv beta iota.
    unfold pmap at 1. unfold pbind at 1. unfold padded at 1. change (trim_start (bs "1.0 ;")) with (bs "1.0 ;").
    unfold recover, value_lit, alt, pmap, pbind. rewrite M. reflexivity.
Qed.
Print Assumptions C45_space_changes_number_refuted.

Theorem C45_eval_without_parentheses_refuted : forall f32_parse f32_show try_eval,
  parse_config f32_parse f32_show try_eval (bs "x = __EVAL 5;") = PPanic.
Proof. intros. vm_compute. reflexivity. Qed.
Print Assumptions C45_eval_without_parentheses_refuted.

(** A class with a parent, an array holding a number, a string and an empty array, and a spaced entry. *)
Example C45_applies : forall f32_parse f32_show try_eval, try_eval (bs "17") = Some (Int32 17) ->
  config_text (denotes f32_parse) (kept f32_show try_eval)
    [ PClass (Local (bs "A") (Some (bs "B"))
        [Entry (bs "x") (VArr false [INum (Int32 17); IStr [113; 34]; IArr []]) true] false);
      Delete (bs "C") ]
    (bs " class A: B {" ++ [10; 9] ++ bs "x[] = {17 ,""q"""""" , {}};" ++ [10] ++ bs "};delete C;").
Proof.
  intros fp fs te E17.
  assert (NM : forall c, 65 <= c <= 90 \/ 97 <= c <= 122 -> name [c]).
  { intros c Hc. split; [discriminate|]. constructor; [lia|constructor]. }
  assert (SP : forall l, forallb is_ws l = true -> blank l).
  { intros l H. apply Forall_forall. intros x Hx. rewrite forallb_forall in H. auto. }
  exists [32], ((bs "class " ++ [] ++ bs "A" ++ [] ++ bs ":" ++ [32] ++ bs "B" ++ [32] ++ bs "{" ++ [10; 9] ++
    ((bs "x" ++ [] ++ bs "[]" ++ [32] ++ bs "=" ++ [32] ++
       (bs "{" ++ [] ++ (bs "17" ++ [32] ++ bs "," ++ [] ++ (quoted [113; 34] ++ [32] ++ bs "," ++ [32] ++ ((bs "{" ++ [] ++ bs "}") ++ [] ++ bs "}"))))
       ++ [] ++ bs ";") ++ [10] ++ []) ++ bs "}" ++ [] ++ bs ";") ++ [] ++
    ((bs "delete " ++ [] ++ bs "C" ++ [] ++ bs ";") ++ [] ++ [])).
  split; [reflexivity|]. split; [apply SP; reflexivity|].
  apply ps_cons; [|apply SP; reflexivity|apply ps_cons; [apply pt_delete; [apply NM; cbn; lia|apply SP; reflexivity|apply SP; reflexivity]|apply SP; reflexivity|apply ps_nil]].
  apply pt_subclass; try (apply NM; cbn; lia); try (apply SP; reflexivity).
  apply ps_cons; [|apply SP; reflexivity|apply ps_nil].
  apply pt_array; try (apply NM; cbn; lia); try (apply SP; reflexivity).
  apply at_intro; [apply SP; reflexivity|]. apply el_more; try (apply SP; reflexivity).
  - apply it_num.
    + apply nt_pos. apply (nt_int _ (bs "17") 17); [|discriminate|lia].
      change (bs "17") with (([] ++ [49]) ++ [55]). change 17 with ((0 * 10 + 1) * 10 + 7).
      repeat (eapply sp_digit; [|unfold digit; lia|lia]). constructor.
    + intros _. left. exact E17.
  - apply el_more; try (apply SP; reflexivity).
    + apply it_str. exists [[113; 34]]. split; [constructor|]. cbn [join].
      repeat (constructor; try (intros E; discriminate)).
    + apply el_last; [constructor|]. apply it_arr. apply at_intro; constructor.
Qed.
