(** More fuel does not change a result. *)
From Verif Require Import Base.Tactics Base.Bytes Base.Text Preproc.Model.

Definition le_run {A} (r r' : run A) : Prop := r = NoFuel \/ r' = r.
Lemma le_refl {A} (r : run A) : le_run r r.
Proof. now right. Qed.
Lemma le_none {A} (r : run A) : le_run NoFuel r.
Proof. now left. Qed.
Lemma le_trans {A} (a b c : run A) : le_run a b -> le_run b c -> le_run a c.
Proof. intros [->| ->]; [now left|auto]. Qed.
Lemma le_bind {A B} (r r' : run A) (k k' : A -> run B) :
  le_run r r' -> (forall a, le_run (k a) (k' a)) -> le_run (rbind r k) (rbind r' k').
Proof. intros [->| ->] H; [now left|]. destruct r; cbn [rbind]; auto using le_refl. Qed.
Lemma le_ok {A} (r r' : run A) a : le_run r r' -> r = Ok a -> r' = Ok a.
Proof. intros [->| ->] H; congruence. Qed.

Section Fuel.
  Context (checked : bool) (locate : text -> text -> option (text * bool)) (parse : text -> run (list token))
          (project : option (option text * text)) (F : Type) (parse_f64 : text -> option F) (flt fle : F -> F -> bool).

  Record le_calls (g h : calls) : Prop := {
    le_file : forall s p ts out, le_run (c_file g s p ts out) (c_file h s p ts out);
    le_walk : forall c m s p ts out q qp jw, le_run (c_walk g c m s p ts out q qp jw) (c_walk h c m s p ts out q qp jw);
    le_directive : forall s p ts out, le_run (c_directive g s p ts out) (c_directive h s p ts out);
    le_define_use : forall c s p ts out, le_run (c_define_use g c s p ts out) (c_define_use h c s p ts out);
    le_call_args : forall c s p ts q d args arg, le_run (c_call_args g c s p ts q d args arg) (c_call_args h c s p ts q d args arg) }.

  Ltac step H :=
    match goal with
    | |- le_run ?x ?x => apply le_refl
    | |- le_run (c_file _ _ _ _ _) _ => apply (le_file _ _ H)
    | |- le_run (c_walk _ _ _ _ _ _ _ _ _ _) _ => apply (le_walk _ _ H)
    | |- le_run (c_directive _ _ _ _ _) _ => apply (le_directive _ _ H)
    | |- le_run (c_define_use _ _ _ _ _ _) _ => apply (le_define_use _ _ H)
    | |- le_run (c_call_args _ _ _ _ _ _ _ _ _) _ => apply (le_call_args _ _ H)
    | |- le_run (rbind _ _) (rbind _ _) => apply le_bind; [|intros ?]
    | |- le_run (match ?x with _ => _ end) _ => destruct x eqn:?
    | |- le_run (let (_, _) := ?x in _) _ => destruct x eqn:?
    end.

  Lemma bodies_mono g h : le_calls g h ->
    le_calls (Calls (file g) (walk g) (directive checked locate parse project F parse_f64 flt fle g) (define_use checked project g) (call_args g))
             (Calls (file h) (walk h) (directive checked locate parse project F parse_f64 flt fle h) (define_use checked project h) (call_args h)).
  Proof.
    intro IH. constructor; cbn [c_file c_walk c_directive c_define_use c_call_args]; intros.
    - unfold file, line. repeat step IH.
    - unfold walk. cbv zeta. repeat step IH.
    - unfold directive, directive_command, directive_include. cbv zeta. repeat step IH.
    - unfold define_use. cbv zeta. repeat step IH.
    - unfold call_args. cbv zeta. repeat step IH.
  Qed.
  Lemma fns_mono n : le_calls (fns checked locate parse project F parse_f64 flt fle n) (fns checked locate parse project F parse_f64 flt fle (S n)).
  Proof.
    induction n as [|n IH]; [constructor; intros; apply le_none|]. exact (bodies_mono _ _ IH).
  Qed.
  Lemma fns_le n m : (n <= m)%nat -> le_calls (fns checked locate parse project F parse_f64 flt fle n) (fns checked locate parse project F parse_f64 flt fle m).
  Proof.
    induction 1 as [|m H IH]; [constructor; intros; apply le_refl|].
    constructor; intros; (eapply le_trans; [apply IH|apply fns_mono]).
  Qed.
End Fuel.
