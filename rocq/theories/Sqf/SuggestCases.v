(** C75 in cases: an interpretation in which the commands do what they are documented to do, scripts and their suggestions, and
    where suggestions go wrong. *)
From Coq Require Import String.
From Verif Require Import Base.Tactics Base.Bytes Base.Ascii Base.Text Base.Sort Sqf.Ast Sqf.ParseModel Sqf.ParseSpec Sqf.ParseProps
  Sqf.LexModel Sqf.LexSpec Sqf.SourceModel Sqf.SourceSpec Sqf.OptimizeModel Sqf.OptimizeSpec Sqf.SuggestModel Sqf.SuggestSpec Sqf.SuggestProofs Sqf.SuggestProps.
Local Open Scope N_scope.
Local Open Scope list_scope.

(** ** An interpretation *)
Inductive value := VLit (l : literal) | VArr (l : list value) | VIf (b : bool) | VElse (a b : value) | VUnit (mounted : bool) | VCar | VNull | VTyped (t : text) | VNothing.
Definition one_bits : N := 1065353216.
Definition minus_one_bits : N := 3212836864.
Definition nearest (n : N) : N := if n =? 0 then 0 else if n =? 1 then one_bits else 1073741824 + n.
Fixpoint prefixed (p s : text) : bool := match p, s with [], _ => true | x :: p, y :: s => (x =? y) && prefixed p s | _, [] => false end.
Fixpoint occurs (p s : text) : bool := prefixed p s || match s with [] => false | _ :: s => occurs p s end.
Definition lookup (x : text) : option text := assoc documented_types x.
Definition truth (b : bool) : value := VLit (LBool b).
Definition string (s : text) : value := VLit (LStr s).
Definition type_of (v : value) : option text :=
  match v with
  | VLit (LNum _) => Some (bs "SCALAR") | VLit (LStr _) => Some (bs "STRING") | VLit (LBool _) => Some (bs "BOOL")
  | VLit (LNull x) => lookup x | VLit (LCode _ _ _) => Some (bs "CODE") | VLit (LArr _) | VArr _ => Some (bs "ARRAY")
  | VTyped t => Some t | VUnit _ | VCar | VNull => Some (bs "OBJECT") | _ => None
  end.
Definition equal_values (u v : value) : option bool :=
  match u, v with
  | VLit (LBool a), VLit (LBool b) => Some (Bool.eqb a b)
  | VUnit a, VUnit b => Some (Bool.eqb a b)
  | VUnit _, VCar | VCar, VUnit _ => Some false
  | _, _ => None
  end.
Definition state : Type := list (text * value).
Definition do_unary (r : runner value state) (c : text) (v : value) (w : state) : option (value * state) :=
  if eqb_bytes c (bs "!") then match v with VLit (LBool b) => Some (truth (negb b), w) | _ => None end
  else if eqb_bytes c (bs "parsenumber") then match v with VLit (LBool b) => Some (VLit (LNum (if b then one_bits else 0)), w) | _ => None end
  else if eqb_bytes c (bs "if") then match v with VLit (LBool b) => Some (VIf b, w) | _ => None end
  else if eqb_bytes c (bs "-") then match v with VLit (LNum x) => Some (VLit (LNum (if x =? one_bits then minus_one_bits else 0)), w) | _ => None end
  else if eqb_bytes c (bs "typename") then match type_of v with Some t => Some (string t, w) | None => None end
  else if eqb_bytes c (bs "vehicle") then match v with VUnit m => Some (if m then VCar else v, w) | _ => None end
  else if eqb_bytes c (bs "objectparent") then match v with VUnit m => Some (if m then VCar else VNull, w) | _ => None end
  else if eqb_bytes c (bs "isnull") then match v with VNull => Some (truth true, w) | VCar | VUnit _ => Some (truth false, w) | _ => None end
  else if eqb_bytes c (bs "text") then match v with VTyped _ => Some (string [], w) | VLit (LStr _) => Some (VTyped (bs "TEXT"), w) | _ => None end
  else None.
Definition do_binary (r : runner value state) (c : text) (u v : value) (w : state) : option (value * state) :=
  if eqb_bytes c (bs "select") then match u, v with VArr [x; y], VLit (LBool b) => Some (if b then y else x, w) | _, _ => None end
  else if eqb_bytes c (bs "==") then option_map (fun b => (truth b, w)) (equal_values u v)
  else if eqb_bytes c (bs "!=") then option_map (fun b => (truth (negb b), w)) (equal_values u v)
  else if eqb_bytes c (bs "else") then Some (VElse u v, w)
  else if eqb_bytes c (bs "then") then
    match u, v with
    | VIf b, VElse (VLit (LCode c _ _)) (VLit (LCode d _ _)) =>
        match r (if b then c else d) w with Some (Some x, w) => Some (x, w) | Some (None, w) => Some (VNothing, w) | None => None end
    | _, _ => None
    end
  else if eqb_bytes c (bs "find") then
    match u, v with VLit (LStr h), VLit (LStr s) => Some (VLit (LNum (if occurs s h then 0 else minus_one_bits)), w) | _, _ => None end
  else if eqb_bytes c (bs ">") then match u, v with VLit (LNum x), VLit (LNum y) => Some (truth (negb (x =? y)), w) | _, _ => None end
  else if eqb_bytes c (bs "in") then match u, v with VLit (LStr s), VLit (LStr h) => Some (truth (occurs s h), w) | _, _ => None end
  else None.
Definition arma : lang :=
  Lang value state (fun l => VLit (bare_literal l)) (fun vs w => (VArr vs, w))
    (fun _ x w => match lookup x with Some t => Some (VTyped t, w) | None => None end) do_unary do_binary (fun _ => VNothing)
    (fun x w => match find (fun p => eqb_bytes (fst p) x) w with Some p => Some (snd p, w) | None => None end)
    (fun x v w => Some ((x, v) :: w)) (fun x v w => Some ((x, v) :: w)).
Lemma prefixed_iff : forall p s, prefixed p s = true <-> exists r, s = p ++ r.
Proof.
  induction p as [|x p IH]; intros s; [split; [intros _; now exists s|auto]|]. destruct s as [|y s]; cbn [prefixed app].
  - split; [discriminate|intros (r & E); discriminate].
  - rewrite andb_true_iff, IH, N.eqb_eq. split; [intros (-> & r & ->); now exists r|intros (r & E); injection E as -> ->; eauto].
Qed.
Lemma occurs_iff : forall s p, occurs p s = true <-> holds p s.
Proof.
  induction s as [|y s IH]; intros p; cbn [occurs]; rewrite orb_true_iff, prefixed_iff.
  - split; [intros [(r & E)|]; [exists [], r; exact E|discriminate]|]. intros (a & b & E). left. destruct a; [now exists b|discriminate].
  - rewrite IH. split; [intros [(r & E)|(a & b & ->)]; [exists [], r; exact E|now exists (y :: a), b]|]. intros (a & b & E).
    destruct a as [|z a]; [left; now exists b|]. right. injection E as -> ->. now exists a, b.
Qed.
Lemma arma_commands : commands arma (nearest 0) (nearest 1) minus_one_bits VArr VIf VElse (fun v => exists m, v = VUnit m) VNothing.
Proof.
  split; try (intros; reflexivity).
  - intros l l' E. cbn. now rewrite E.
  - intros r u v b w w'. cbn [binary_cmd arma]. change (do_binary r (bs "==") u v w) with (option_map (fun b => (truth b, w)) (equal_values u v)).
    change (do_binary r (bs "!=") u v w) with (option_map (fun b => (truth (negb b), w)) (equal_values u v)).
    destruct (equal_values u v) as [[]|], b; cbn; split; intros H; try discriminate H; injection H as <-; reflexivity.
  - intros r b c d s s' sp sp' w. destruct b; reflexivity.
  - intros r h s. exists (if occurs s h then 0 else minus_one_bits), (occurs s h). split; [apply occurs_iff|]. intros w. cbn. split; [reflexivity|]. destruct (occurs s h); reflexivity.
  - intros r h s. exists (occurs s h). split; [apply occurs_iff|reflexivity].
  - intros r x t sp w H. cbn [eval]. destruct (is_in nular_constants x) eqn:E.
    + eexists. split; [reflexivity|]. cbn [unary_cmd arma lit]. cbn [documented_types In] in H.
      repeat (destruct H as [H|H]; [injection H as <- <-; reflexivity|]). contradiction.
    + cbn [nular arma]. cbn [documented_types In] in H.
      repeat (destruct H as [H|H]; [injection H as <- <-; eexists; split; reflexivity|]). contradiction.
  - intros r o (m & ->). exists (if m then VCar else VUnit m), (if m then VCar else VNull), (negb m). intros w. destruct m; repeat split.
Qed.

(** ** Scripts *)
Definition wiki1 : list wiki_entry :=
  [(bs "if", [CallUnary]); (bs "then", [CallBinary]); (bs "select", [CallBinary]); (bs "parseNumber", [CallUnary]); (bs "isNull", [CallUnary]);
   (bs "objectParent", [CallUnary]); (bs "vehicle", [CallUnary]); (bs "find", [CallBinary]); (bs "in", [CallBinary]); (bs "typeName", [CallUnary]); (bs "text", [CallUnary]);
   (bs "objNull", [CallNular]); (bs "player", [CallNular]); (bs "getText", [CallUnary])].
Definition db1 : database := a3_with_workspace wiki1 [].
Definition tiny_bits : N := 841731191. (* 0.00000001 *)
Definition decimal (s : text) : N := tiny_bits.
Definition show1 (n : N) : text := if n =? 0 then bs "0" else if n =? one_bits then bs "1" else [48 + (n - 1073741824)].
Definition results1 (c : text) : option (list result_type) := None.
Notation read1 := (read_sqf db1 decimal nearest).
Notation suggests1 := (suggests show1 results1).
Notation fit1 := (fit (number_text decimal nearest) show1).
(** The one expression of a script. *)
Definition only (s : text) : option expr := match read1 s with Some r => match content r with [SExpr e _] => Some e | _ => None end | None => None end.
Lemma only_part : forall s e, only s = Some e -> exists r, read1 s = Some r /\ part e (content r).
Proof.
  intros s e H. unfold only in H. destruct (read1 s) as [r|]; [|discriminate]. exists r. split; [reflexivity|]. destruct (content r) as [|[| |x sp] [|]]; try discriminate.
  injection H as ->. exists (SExpr e sp). split; [now left|constructor].
Qed.
Example db1_known : Forall (fun x => has_unary db1 x = true) [bs "parseNumber"; bs "isNull"; bs "objectParent"] /\ Forall (fun x => has_binary db1 x = true) [bs "select"; bs "in"].
Proof. split; repeat constructor. Qed.
Lemma digit_number : forall d, d < 10 -> number_text decimal nearest (nearest d) [48 + d].
Proof. intros d L. apply N_whole; [discriminate| |lia]. apply (numeral_more 10 [] 0 (48 + d) d); [constructor|lia|]. left. split; lia. Qed.

(** Each lint with a script and its suggestion. *)
Example choice_case : exists e, only (bs "if (vehicle player == _x) then {'a'} else {2}") = Some e /\ suggests1 e (bs "[2, ""a""] select (vehicle player == _x)") /\ fit1 e.
Proof.
  eexists. split; [vm_compute; reflexivity|]. split; [right; left; vm_compute; reflexivity|]. cbn [fit shown_well fit_constant]. split; [tauto|]. split; [cbn; lia|].
  split; [exact (digit_number 2 eq_refl)|]. intros X. discriminate X.
Qed.
Example choice_number_case : exists e, only (bs "if (isNull _x) then {1} else {0}") = Some e /\ suggests1 e (bs "parseNumber isNull _x") /\ fit1 e.
Proof.
  eexists. split; [vm_compute; reflexivity|]. split; [right; left; vm_compute; reflexivity|]. cbn [fit shown_well fit_constant]. split; [tauto|].
  split; [exact (digit_number 1 eq_refl)|]. split; [exact (digit_number 0 eq_refl)|]. intros _ _. repeat split.
Qed.
Example search_case : exists e, only (bs "(_x find 'ab') > -1") = Some e /\ suggests1 e (bs """ab"" in _x") /\ fit1 e.
Proof. eexists. split; [vm_compute; reflexivity|]. split; [right; right; left; vm_compute; reflexivity|]. cbn. split; [tauto|]. split; [lia|]. intros X. vm_compute in X. discriminate X. Qed.
Example number_case : exists e, only (bs "[1, 0] select (_x == 2)") = Some e /\ suggests1 e (bs "parseNumber (_x != 2)") /\ fit1 e.
Proof.
  eexists. split; [vm_compute; reflexivity|]. split; [do 3 right; left; vm_compute; reflexivity|]. cbn [fit shown_well]. split; [split; [exact I|exact (digit_number 2 eq_refl)]|].
  split; intros X; vm_compute in X; discriminate X.
Qed.
Example vehicle_case : exists e, only (bs "player != Vehicle player") = Some e /\ suggests1 e (bs "!isNull objectParent player") /\ fit1 e.
Proof. eexists. split; [vm_compute; reflexivity|]. split; [do 4 right; left; vm_compute; reflexivity|exact I]. Qed.
Example boolean_case : exists e, only (bs "false == _x") = Some e /\ suggests1 e (bs "!_x") /\ fit1 e.
Proof. eexists. split; [vm_compute; reflexivity|]. split; [do 5 right; left; vm_compute; reflexivity|exact I]. Qed.
Example type_case : exists e, only (bs "typeName 'a'") = Some e /\ suggests1 e (bs """STRING""") /\ fit1 e.
Proof. eexists. split; [vm_compute; reflexivity|]. split; [left; vm_compute; reflexivity|exact I]. Qed.
(** The first in the interpretation above, with [_x] Boolean. *)
Example number_case_met : exists e, only (bs "[1, 0] select (_x == true)") = Some e /\ exact (nearest 0) (nearest 1) e /\
  met arma (fun v => exists m, v = VUnit m) (exec arma 1) [(bs "_x", truth false)] (match e with EBinary _ _ c _ => NeedsBoolean c | _ => NeedsNothing end) /\
  exists v, eval arma (exec arma 1) e [(bs "_x", truth false)] = Some (v, [(bs "_x", truth false)]) /\ v = VLit (LNum one_bits).
Proof.
  eexists. split; [vm_compute; reflexivity|]. split; [split; [|exact I]|].
  - intros x sp W. inversion W; subst; [|match goal with H : within _ (EBinary _ _ _ _) |- _ => inversion H; subst; match goal with H : within _ _ |- _ => inversion H end end].
    match goal with H : within _ (EArray _ _) |- _ => inversion H; subst end.
    match goal with H : In _ [_; _] |- _ => destruct H as [<-|[<-|[]]] end; match goal with H : within _ (ENumber _ _) |- _ => inversion H; subst end;
      (split; intros X; vm_compute in X; try reflexivity; try (exfalso; destruct X; congruence); exfalso; congruence).
  - split; [exists false, [(bs "_x", truth false)]; vm_compute; reflexivity|]. eexists. split; vm_compute; reflexivity.
Qed.

(** ** Where the suggestion is another program *)
Definition value_of (e : expr) (w : state) : option value := option_map fst (eval arma (exec arma 5) e w).
(** The script is read, the suggestion made, read in turn, and the two leave these values in state [w] ([None]: the script fails). *)
Definition becomes (s t : text) (w : state) (v v' : option value) : Prop :=
  exists e e', only s = Some e /\ suggests1 e t /\ only t = Some e' /\ value_of e w = v /\ value_of e' w = v'.
Local Ltac becomes := eexists _, _; split; [vm_compute; reflexivity|]; split; [vm_compute; tauto|]; split; [vm_compute; reflexivity|]; split; vm_compute; reflexivity.

(** A condition that is an operator applied to two operands is suggested without parentheses, and [parseNumber] takes its left operand alone. *)
Theorem C75_condition_unwrapped_refuted :
  becomes (bs "if (_a == _b) then {1} else {0}") (bs "parseNumber _a == _b") [(bs "_a", truth true); (bs "_b", truth true)] (Some (VLit (LNum one_bits))) None.
Proof. becomes. Qed.
(** Strings that look like the numbers are taken for them. *)
Theorem C75_digit_strings_refuted :
  becomes (bs "if (_a) then {'1'} else {'0'}") (bs "parseNumber _a") [(bs "_a", truth true)] (Some (string (bs "1"))) (Some (VLit (LNum one_bits))).
Proof. becomes. Qed.
(** Both operands of the suggested choice are evaluated, so a variable of the branch not taken must be defined. *)
Theorem C75_branch_variable_refuted :
  becomes (bs "if (_a) then {_x} else {_y}") (bs "[_y, _x] select (_a)") [(bs "_a", truth true); (bs "_x", truth false)] (Some (truth false)) None.
Proof. becomes. Qed.
(** [text] of a location is a string. *)
Theorem C75_text_of_location_refuted :
  becomes (bs "typeName text _x") (bs """TEXT""") [(bs "_x", VTyped (bs "LOCATION"))] (Some (string (bs "STRING"))) (Some (string (bs "TEXT"))).
Proof. becomes. Qed.
(** A number within an epsilon of zero is taken for zero. *)
Theorem C75_tiny_number_refuted :
  becomes (bs "[0.00000001, 1] select (_a == true)") (bs "parseNumber (_a == true)") [(bs "_a", truth false)] (Some (VLit (LNum tiny_bits))) (Some (VLit (LNum 0))).
Proof. becomes. Qed.
(** A quote in the needle ends the suggested string early, and the suggestion is no script. *)
Theorem C75_needle_quote_refuted : exists e t, only (bs "(_x find 'a""b') > -1") = Some e /\ suggests1 e t /\ read1 t = None.
Proof. eexists _, _. split; [vm_compute; reflexivity|]. split; [right; right; left; vm_compute; reflexivity|vm_compute; reflexivity]. Qed.
(** Only the all-lower-case spelling of a value command is known. *)
Theorem C75_type_spelling_refuted : (exists e, only (bs "typeName objnull") = Some e /\ s03 e = Some (bs """OBJECT""")) /\
  exists e, only (bs "typeName objNull") = Some e /\ s03 e = None.
Proof. split; eexists; (split; vm_compute; reflexivity). Qed.
Print Assumptions C75_condition_unwrapped_refuted.
