(** C75: when exactly the lint on select of 0 and 1 suggests something. *)
From Coq Require Import String.
From Verif Require Import Base.Tactics Base.Bytes Base.Ascii Base.Text Base.Sort Sqf.Ast Sqf.ParseModel Sqf.LexModel Sqf.SourceModel Sqf.SuggestModel.
Local Open Scope N_scope.
Local Open Scope list_scope.

(** Floats by their bits: a number; one at most, or less than, 2^-23 from 0; one at most 2^-23 from 1. *)
Definition number_bits (x : N) : Prop := x mod 2 ^ 31 <= 2139095040.
Definition near_zero (x : N) : Prop := x mod 2 ^ 31 <= 872415232.
Definition nearer_zero (x : N) : Prop := x mod 2 ^ 31 < 872415232.
Definition near_one (x : N) : Prop := 1065353214 <= x <= 1065353217.
(** A result that is a Boolean or a string, or one of several that all are. *)
Inductive certain : result_type -> Prop :=
| certain_boolean : certain RBoolean
| certain_string : certain RString
| certain_of l : (forall x, In x l -> x = RBoolean \/ x = RString) -> certain (ROneOf l).
(** A command that compares, or whose documented results all are so. *)
Definition certain_command (results : text -> option (list result_type)) (c : text) : Prop :=
  In c [bs "=="; bs "!="; bs "<"; bs "<="; bs ">"; bs ">="; bs "&&"; bs "||"] \/
  exists l, results c = Some l /\ forall r, In r l -> certain r.
Inductive certain_condition (results : text -> option (list result_type)) : expr -> Prop :=
| cc_string s p w : certain_condition results (EString s p w)
| cc_bool b p : certain_condition results (EBool b p)
| cc_nular n p : certain_command results n -> certain_condition results (ENular n p)
| cc_unary c x p : certain_command results (unary_str c) -> certain_condition results (EUnary c x p)
| cc_binary c x y p : certain_command results (binary_str c) -> certain_condition results (EBinary c x y p).

Lemma safe_result_spec : forall r, safe_result r = true <-> certain r.
Proof.
  intros r. split.
  - destruct r as [| |l|]; cbn [safe_result boolean_or_string]; intros H; try constructor; [|discriminate].
    intros x Hx. rewrite forallb_forall in H. specialize (H x Hx). destruct x; try discriminate; auto.
  - intros [| |l H]; try reflexivity. cbn [safe_result]. apply forallb_forall. intros x Hx. destruct (H x Hx); subst; reflexivity.
Qed.
Lemma safe_command_spec : forall results c, safe_command results c = true <-> certain_command results c.
Proof.
  intros results c. unfold safe_command, certain_command.
  destruct (existsb (eqb_bytes c) _) eqn:E.
  - apply existsb_exists in E as (x & Hx & E). apply eqb_bytes_spec in E. subst x. tauto.
  - assert (K : ~ In c [bs "=="; bs "!="; bs "<"; bs "<="; bs ">"; bs ">="; bs "&&"; bs "||"]).
    { intros H. assert (T : existsb (eqb_bytes c) [bs "=="; bs "!="; bs "<"; bs "<="; bs ">"; bs ">="; bs "&&"; bs "||"] = true)
        by (apply existsb_exists; exists c; split; [exact H|apply eqb_bytes_refl]). congruence. }
    destruct (results c) as [l|].
    + rewrite forallb_forall. split.
      * intros H. right. exists l. split; [reflexivity|]. intros r Hr. now apply safe_result_spec, H.
      * intros [H|(l' & El & H)]; [contradiction|]. assert (l' = l) by congruence. subst. intros r Hr. now apply safe_result_spec, H.
    + split; [discriminate|]. intros [H|(l' & El & H)]; [contradiction|discriminate].
Qed.
Lemma safe_spec : forall results e, safe results e = true <-> certain_condition results e.
Proof.
  intros results e. split.
  - destruct e; cbn [safe]; intros H; try discriminate; constructor; now apply safe_command_spec.
  - intros H. destruct H; cbn [safe]; try reflexivity; now apply safe_command_spec.
Qed.

(** Of two numbers one must be 0 and the other 1, up to 2^-23, and the condition certainly a Boolean or a string. *)
Theorem C75_select_exact : forall show_f32 results n a pa b pb q condition p, number_bits a -> number_bits b ->
  ((exists t, s07 show_f32 results (EBinary (BNamed n) (EArray [ENumber a pa; ENumber b pb] q) condition p) = Some t) <->
   to_ascii_lower n = bs "select" /\ certain_condition results condition /\
   ((near_zero a /\ near_one b) \/ (near_one a /\ nearer_zero b))).
Proof.
  intros show_f32 results n a pa b pb q condition p Na Nb. unfold s07. rewrite <- (safe_spec results condition).
  destruct (eqb_bytes (to_ascii_lower n) (bs "select")) eqn:E; cbn [negb].
  2:{ split; [intros [t H]; discriminate|]. intros [H _]. rewrite H in E. now rewrite eqb_bytes_refl in E. }
  apply eqb_bytes_spec in E. destruct (safe results condition) eqn:S; cbn [negb]; [|split; [intros [t H]; discriminate|intros (_ & H & _); discriminate]].
  assert (Z : forall x, number_bits x -> (beyond_zero x = false <-> near_zero x)).
  { intros x Hx. unfold beyond_zero, f32_nan, f32_abs, number_bits, near_zero in *. change (2 ^ 31) with 2147483648 in *.
    destruct (N.ltb_spec 2139095040 (x mod 2147483648)); [lia|]. cbn [negb andb]. destruct (N.ltb_spec 872415232 (x mod 2147483648)); split; intros; try discriminate; try reflexivity; lia. }
  assert (O : forall x, number_bits x -> (beyond_one x = false <-> near_one x)).
  { intros x Hx. unfold beyond_one, f32_nan, f32_abs, number_bits, near_one in *. change (2 ^ 31) with 2147483648 in *.
    destruct (N.ltb_spec 2139095040 (x mod 2147483648)); [lia|]. cbn [negb andb].
    destruct (N.leb_spec 1065353214 x), (N.leb_spec x 1065353217); cbn [andb negb]; split; intros; try discriminate; try reflexivity; lia. }
  assert (D : near_one b -> ~ nearer_zero b) by (unfold near_one, nearer_zero; change (2 ^ 31) with 2147483648; lia).
  assert (W : forall x, nearer_zero x -> near_zero x) by (unfold nearer_zero, near_zero; intros; lia).
  assert (T : tiny b = true <-> nearer_zero b) by (unfold tiny, f32_abs, nearer_zero; apply N.ltb_lt).
  destruct (tiny b) eqn:Tb.
  - pose proof (proj1 T eq_refl) as B. cbv zeta iota. rewrite (proj2 (Z b Nb) (W b B)). cbn [orb]. destruct (beyond_one a) eqn:A.
    + split; [intros [t H]; discriminate|]. intros (_ & _ & [[_ H]|[H _]]); [now apply D in H|]. apply (O a Na) in H. congruence.
    + split; [intros _|eauto]. split; [exact E|]. split; [reflexivity|]. right. split; [now apply O|exact B].
  - assert (B : ~ nearer_zero b) by (intros H; apply T in H; discriminate). cbv zeta iota.
    destruct (beyond_zero a) eqn:A; cbn [orb].
    + split; [intros [t H]; discriminate|]. intros (_ & _ & [[H _]|[_ H]]); [|contradiction]. apply (Z a Na) in H. congruence.
    + destruct (beyond_one b) eqn:C.
      * split; [intros [t H]; discriminate|]. intros (_ & _ & [[_ H]|[_ H]]); [|contradiction]. apply (O b Nb) in H. congruence.
      * split; [intros _|eauto]. split; [exact E|]. split; [reflexivity|]. left. split; [now apply Z|now apply O].
Qed.
(** A case: [0, 1] select true. *)
Example select_case : number_bits 0 /\ number_bits 1065353216 /\ near_zero 0 /\ near_one 1065353216 /\ to_ascii_lower (bs "Select") = bs "select".
Proof. unfold number_bits, near_zero, near_one. repeat split; vm_compute; try reflexivity; discriminate. Qed.
Print Assumptions C75_select_exact.
