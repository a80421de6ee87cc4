(** C99: commands under the cursor. *)
From Coq Require Import String.
From Verif Require Import Base.Tactics Base.Bytes Base.Sort Base.Ascii Base.Text Sqf.Ast Sqf.FormatModel.
From Verif Require Import Hls.LocateModel Hls.LocateSpec.
Local Open Scope N_scope.
Local Open Scope list_scope.

Section Locate.
  Context (map_at : N -> option (text * (N * N))).
  Notation written := (written map_at). Notation in_turn := (in_turn map_at). Notation laid_out := (laid_out map_at).
  Notation range := (range map_at). Notation locate := (locate map_at).

  Lemma first_some_in {A B} (f : A -> option B) l b : first_some f l = Some b -> exists x, In x l /\ f x = Some b.
  Proof. unfold first_some. induction l as [|x l IH]; [discriminate|]. destruct (f x) eqn:E; [intros [= ->]; exists x; split; [now left|exact E]|]. intros F. destruct (IH F) as (y & I & E'). exists y. split; [now right|exact E']. Qed.
  Lemma first_some_ext {A B} (f g : A -> option B) l : (forall x, f x = g x) -> first_some f l = first_some g l.
  Proof. intros E. unfold first_some. induction l as [|x l IH]; [reflexivity|]. rewrite E. destruct (g x); [reflexivity|exact IH]. Qed.
  Lemma written_range e s u : written e s u -> range e = Some (s, u).
  Proof. intros ((f & x & E) & (f' & x' & E') & _). unfold LocateModel.range, starts, ends. now rewrite E, E'. Qed.
  Lemma written_fun e s u s' u' : written e s u -> written e s' u' -> s = s' /\ u = u'.
  Proof. intros A B. apply written_range in A, B. rewrite A in B. injection B. auto. Qed.

  (** Whatever is found is in the script, and the cursor is behind its start and before the end of the token after it. *)
  Theorem C99_sound : forall c o r, locate_script map_at c o = Some r ->
    exists st s u, In st c /\ occurs r (stmt_expr st) /\ range r = Some (s, u) /\ s < o < u.
  Proof.
    assert (L : forall e o r, locate e o = Some r -> occurs r e /\ exists s u, range r = Some (s, u) /\ s < o < u).
    { apply (expr_ind' (fun e => forall o r, locate e o = Some r -> occurs r e /\ exists s u, range r = Some (s, u) /\ s < o < u)
        (fun st => forall o r, locate (stmt_expr st) o = Some r -> occurs r (stmt_expr st) /\ exists s u, range r = Some (s, u) /\ s < o < u)); intros;
      try (cbn [stmt_expr] in *; auto; fail).
      all: match goal with H : locate _ _ = _ |- _ => cbn [LocateModel.locate] in H; destruct (range _) as [[s0 t0]|] eqn:R in H; [|discriminate H]; destruct (N.leb_spec o s0), (N.leb_spec t0 o); cbn [orb] in H; try discriminate H end.
      all: try (match goal with H : (match map_at (fst ?sp) with _ => _ end) = _ |- _ => destruct (map_at (fst sp)) as [[f [a b']]|]; [|discriminate H]; destruct ((a <=? o) && (o <? b'))%bool; [|discriminate H]; injection H as <- end; split; [constructor|]; exists s0, t0; auto).
      - apply first_some_in in H0 as (st & I & E). rewrite Forall_forall in H. destruct (H st I o r) as (Oc & Ra); [destruct st; exact E|]. split; [now apply (occurs_code r st)|exact Ra].
      - apply first_some_in in H0 as (x & I & E). rewrite Forall_forall in H. destruct (H x I o r E) as (Oc & Ra). split; [now apply (occurs_array r x)|exact Ra].
      - apply first_some_in in H0 as (x & I & E). rewrite Forall_forall in H. destruct (H x I o r E) as (Oc & Ra). split; [now apply (occurs_consumable r x)|exact Ra].
      - injection H as <-. split; [constructor|]. exists s0, t0. auto.
      - destruct (range e) as [[a b]|]; [|discriminate H0]. destruct ((a <=? o) && (o <? b))%bool; [destruct (H o r H0); split; [now constructor|assumption]|]. injection H0 as <-. split; [constructor|]. exists s0, t0. auto.
      - destruct (range a) as [[a1 b1]|]; [|discriminate H1]. destruct ((a1 <=? o) && (o <? b1))%bool; [destruct (H o r H1); split; [now apply occurs_left|assumption]|].
        destruct (range b) as [[a2 b2]|]; [|discriminate H1]. destruct ((a2 <=? o) && (o <? b2))%bool; [destruct (H0 o r H1); split; [now apply occurs_right|assumption]|]. injection H1 as <-. split; [constructor|]. exists s0, t0. auto. }
    intros c o r H. apply first_some_in in H as (st & I & E). destruct (L _ _ _ E) as (Oc & s & u & Ra). exists st, s, u. auto.
  Qed.

  (** *** A command under the cursor is found *)
  Lemma laid_written e : laid_out e -> exists s u, written e s u.
  Proof.
    intros L. destruct L as [? ? ? s u W|? ? s u W|? ? s u W|? ? s u W|? ? s k u f W|? ? ? s k u f sx W|? x y ? sx ux k1 k2 sy uy f Wx K Wy B1 B2 B3|? ? s u W|? ? s u W|? ? ? s u W]; eauto.
    exists sx, uy. destruct Wx as (A & _ & C), Wy as (_ & B & D). split; [exact A|]. split; [exact B|]. lia.
  Qed.
  Lemma turn_le l : forall s u, in_turn l s u -> s <= u.
  Proof. induction l as [|x l IH]; cbn [LocateSpec.in_turn]; intros s u H; [exact H|]. destruct H as (sx & ux & (_ & _ & W) & B & R). apply IH in R. lia. Qed.
  Lemma turn_in l x : In x l -> forall s u, in_turn l s u -> exists sx ux, written x sx ux /\ s <= sx /\ ux <= u.
  Proof.
    induction l as [|y l IH]; intros I s u H; [destruct I|]. destruct H as (sy & uy & W & B & R). destruct I as [->|I].
    - exists sy, uy. split; [exact W|]. split; [exact B|]. now apply turn_le in R.
    - destruct (IH I _ _ R) as (sx & ux & Wx & B1 & B2). exists sx, ux. split; [exact Wx|]. destruct W as (_ & _ & W). split; [lia|exact B2].
  Qed.
  (** The name of a command in an expression is within it. *)
  Lemma within r e n sp o s u : occurs r e -> laid_out e -> command_at r = Some (n, sp) -> cursor_in map_at r sp o -> written e s u -> s < o < u.
  Proof.
    intros Oc. revert s u. induction Oc as [|st c src sp' I Oc IH|x l sp' I Oc IH|x l sp' I Oc IH|c x sp' Oc IH|c x y sp' Oc IH|c x y sp' Oc IH]; intros s u L Cm Cu W.
    - destruct Cu as (f & a & b & Em & B & St). destruct L as [| | | |? ? s' k u' f' W' Ek Bk|? x ? s' k u' f' sx W' Ek Wx Bs Bk Lx|? x y ? sx ux k1 k2 sy uy f' Wx Ek Wy B1 B2 B3 Lx Ly|l|l|c]; cbn [command_at] in Cm; try discriminate Cm; injection Cm as _ <-; rewrite Em in Ek; injection Ek as <- <- <-.
      + destruct (written_fun _ _ _ _ _ W W') as (-> & ->). lia.
      + destruct (written_fun _ _ _ _ _ W W') as (-> & ->). destruct Wx as (_ & _ & Wx). lia.
      + destruct W as ((f1 & x1 & W1) & (f2 & x2 & W2) & _), Wx as ((f3 & x3 & W3) & _ & Lt1), Wy as (_ & (f4 & x4 & W4) & Lt2). cbn [full_span fst snd] in W1, W2. rewrite W1 in W3. injection W3 as -> -> ->. rewrite W2 in W4. injection W4 as -> -> ->. lia.
    - inversion L as [| | | | | | | | |? ? ? s' u' W' T F]; subst. destruct (written_fun _ _ _ _ _ W W') as (-> & ->). rewrite Forall_forall in F. destruct (turn_in _ (stmt_expr st) (in_map stmt_expr _ _ I) _ _ T) as (sx & ux & Wx & B1 & B2). pose proof (IH _ _ (F st I) Cm Cu Wx). lia.
    - inversion L as [| | | | | | |? ? s' u' W' T F| |]; subst. destruct (written_fun _ _ _ _ _ W W') as (-> & ->). rewrite Forall_forall in F. destruct (turn_in _ x I _ _ T) as (sx & ux & Wx & B1 & B2). pose proof (IH _ _ (F x I) Cm Cu Wx). lia.
    - inversion L as [| | | | | | | |? ? s' u' W' T F|]; subst. destruct (written_fun _ _ _ _ _ W W') as (-> & ->). rewrite Forall_forall in F. destruct (turn_in _ x I _ _ T) as (sx & ux & Wx & B1 & B2). pose proof (IH _ _ (F x I) Cm Cu Wx). lia.
    - inversion L as [| | | | |? ? ? s' k u' f' sx W' Ek Wx Bs Bk Lx| | | |]; subst. destruct (written_fun _ _ _ _ _ W W') as (-> & ->). pose proof (IH _ _ Lx Cm Cu Wx). lia.
    - inversion L as [| | | | | |? ? ? ? sx ux k1 k2 sy uy f' Wx Ek Wy B1 B2 B3 Lx Ly| | |]; subst. pose proof (IH _ _ Lx Cm Cu Wx). destruct W as ((f1 & x1 & W1) & (f2 & x2 & W2) & _), Wx as ((f3 & x3 & W3) & _ & Lt1), Wy as (_ & (f4 & x4 & W4) & Lt2). cbn [full_span fst snd] in W1, W2. rewrite W1 in W3. injection W3 as -> -> ->. rewrite W2 in W4. injection W4 as -> -> ->. lia.
    - inversion L as [| | | | | |? ? ? ? sx ux k1 k2 sy uy f' Wx Ek Wy B1 B2 B3 Lx Ly| | |]; subst. pose proof (IH _ _ Ly Cm Cu Wy). destruct W as ((f1 & x1 & W1) & (f2 & x2 & W2) & _), Wx as ((f3 & x3 & W3) & _ & Lt1), Wy as (_ & (f4 & x4 & W4) & Lt2). cbn [full_span fst snd] in W1, W2. rewrite W1 in W3. injection W3 as -> -> ->. rewrite W2 in W4. injection W4 as -> -> ->. lia.
  Qed.
  Lemma outside e o s u : written e s u -> o <= s \/ u <= o -> locate e o = None.
  Proof. intros W B. apply written_range in W. destruct e; cbn [LocateModel.locate]; rewrite W; destruct (N.leb_spec o s), (N.leb_spec u o); cbn [orb]; try reflexivity; lia. Qed.
  (** Of expressions written in turn, the one around the cursor is reached. *)
  Lemma reach {A} (g : A -> expr) l x o r : In x l -> forall s u, in_turn (map g l) s u -> (forall sx ux, written (g x) sx ux -> sx < o < ux) -> locate (g x) o = Some r ->
    first_some (fun y => locate (g y) o) l = Some r.
  Proof.
    intros I. induction l as [|y l IH]; intros s u T B Lo; [destruct I|]. cbn [map LocateSpec.in_turn] in T. destruct T as (sy & uy & W & Bs & T). unfold first_some. fold (first_some (fun y => locate (g y) o)). destruct I as [->|I]; [now rewrite Lo|].
    destruct (turn_in _ (g x) (in_map g _ _ I) _ _ T) as (sx & ux & Wx & B1 & B2). pose proof (B _ _ Wx). rewrite (outside (g y) o sy uy W) by lia. apply (IH I uy u T B Lo).
  Qed.
  Lemma found r e n sp o : occurs r e -> laid_out e -> command_at r = Some (n, sp) -> cursor_in map_at r sp o -> locate e o = Some r.
  Proof.
    intros Oc L Cm Cu. destruct (laid_written e L) as (s & u & W). pose proof (within r e n sp o s u Oc L Cm Cu W) as B. pose proof (written_range _ _ _ W) as R.
    assert (Ck : ((o <=? s) || (u <=? o))%bool = false) by (destruct (N.leb_spec o s), (N.leb_spec u o); cbn [orb]; try reflexivity; lia).
    revert s u W B R Ck. induction Oc as [|st c src sp' I Oc IH|x l sp' I Oc IH|x l sp' I Oc IH|c x sp' Oc IH|c x y sp' Oc IH|c x y sp' Oc IH]; intros s u W B R Ck.
    all: assert (Sub : forall y, occurs r y -> laid_out y -> (forall s u, written y s u -> s < o < u -> range y = Some (s, u) -> ((o <=? s) || (u <=? o))%bool = false -> locate y o = Some r) -> (forall sy uy, written y sy uy -> sy < o < uy) /\ locate y o = Some r)
      by (intros z Oz Lz K; split; [intros sz uz Wz; exact (within r z n sp o sz uz Oz Lz Cm Cu Wz)|]; destruct (laid_written z Lz) as (sz & uz & Wz); pose proof (within r z n sp o sz uz Oz Lz Cm Cu Wz); apply (K sz uz Wz); [assumption|now apply written_range|destruct (N.leb_spec o sz), (N.leb_spec uz o); cbn [orb]; try reflexivity; lia]).
    - destruct Cu as (f & a & b & Em & Bo & St). destruct L as [| | | |? ? s' k u' f' W' Ek Bk|? x ? s' k u' f' sx W' Ek Wx Bs Bk Lx|? x y ? sx ux k1 k2 sy uy f' Wx Ek Wy B1 B2 B3 Lx Ly|l|l|c]; cbn [command_at] in Cm; try discriminate Cm; injection Cm as _ <-; rewrite Em in Ek; injection Ek as <- <- <-; cbn [LocateModel.locate]; rewrite R, Ck.
      + reflexivity.
      + rewrite (written_range _ _ _ Wx). destruct (N.leb_spec sx o); [lia|]. reflexivity.
      + rewrite (written_range _ _ _ Wx), (written_range _ _ _ Wy). destruct (N.ltb_spec o ux); [lia|]. rewrite andb_false_r. destruct (N.leb_spec sy o); [lia|]. reflexivity.
    - inversion L as [| | | | | | | | |? ? ? s' u' W' T F]; subst. rewrite Forall_forall in F. destruct (Sub (stmt_expr st) Oc (F st I) (IH (F st I))) as (Bx & Lo). cbn [LocateModel.locate]. rewrite R, Ck.
      rewrite (first_some_ext _ (fun st0 => locate (stmt_expr st0) o)) by (intros []; reflexivity). exact (reach stmt_expr c st o r I _ _ T Bx Lo).
    - inversion L as [| | | | | | |? ? s' u' W' T F| |]; subst. rewrite Forall_forall in F. destruct (Sub x Oc (F x I) (IH (F x I))) as (Bx & Lo). cbn [LocateModel.locate]. rewrite R, Ck. rewrite <- (map_id l) in T. exact (reach (fun x => x) l x o r I _ _ T Bx Lo).
    - inversion L as [| | | | | | | |? ? s' u' W' T F|]; subst. rewrite Forall_forall in F. destruct (Sub x Oc (F x I) (IH (F x I))) as (Bx & Lo). cbn [LocateModel.locate]. rewrite R, Ck. rewrite <- (map_id l) in T. exact (reach (fun x => x) l x o r I _ _ T Bx Lo).
    - inversion L as [| | | | |? ? ? s' k u' f' sx W' Ek Wx Bs Bk Lx| | | |]; subst. destruct (Sub x Oc Lx (IH Lx)) as (Bx & Lo). cbn [LocateModel.locate]. rewrite R, Ck, (written_range _ _ _ Wx). pose proof (Bx _ _ Wx). destruct (N.leb_spec sx o), (N.ltb_spec o u'); cbn [andb]; try lia. exact Lo.
    - inversion L as [| | | | | |? ? ? ? sx ux k1 k2 sy uy f' Wx Ek Wy B1 B2 B3 Lx Ly| | |]; subst. destruct (Sub x Oc Lx (IH Lx)) as (Bx & Lo). cbn [LocateModel.locate]. rewrite R, Ck, (written_range _ _ _ Wx). pose proof (Bx _ _ Wx). destruct (N.leb_spec sx o), (N.ltb_spec o ux); cbn [andb]; try lia. exact Lo.
    - inversion L as [| | | | | |? ? ? ? sx ux k1 k2 sy uy f' Wx Ek Wy B1 B2 B3 Lx Ly| | |]; subst. destruct (Sub y Oc Ly (IH Ly)) as (By & Lo). cbn [LocateModel.locate]. rewrite R, Ck, (written_range _ _ _ Wx), (written_range _ _ _ Wy). pose proof (By _ _ Wy). destruct (N.ltb_spec o ux); [lia|]. rewrite andb_false_r. destruct (N.leb_spec sy o), (N.ltb_spec o uy); cbn [andb]; try lia. exact Lo.
  Qed.
  (** In a script that is laid out, hovering over the name of a command, behind the first character of its expression, shows that command. *)
  Theorem C99_hover : forall c s u st r n sp o, in_turn (map stmt_expr c) s u -> In st c -> laid_out (stmt_expr st) -> occurs r (stmt_expr st) ->
    command_at r = Some (n, sp) -> cursor_in map_at r sp o -> locate_script map_at c o = Some r /\ hover map_at c o = Some n.
  Proof.
    intros c s u st r n sp o T I L Oc Cm Cu. assert (E : locate_script map_at c o = Some r).
    { apply (reach stmt_expr c st o r I s u T); [|now apply (found r _ n sp)]. intros sx ux Wx. exact (within r _ n sp o sx ux Oc L Cm Cu Wx). }
    split; [exact E|]. unfold hover. rewrite E. destruct r; cbn [command_at] in Cm; try discriminate Cm; injection Cm as <- _; reflexivity.
  Qed.
  (** At the first character of an expression nothing of it is found. *)
  Theorem C99_first_char : forall e o, starts map_at (fst (full_span e)) = Some o -> locate e o = None.
  Proof. intros e o E. destruct e; cbn [LocateModel.locate]; unfold LocateModel.range; rewrite E; (destruct (ends map_at _); [|reflexivity]); rewrite N.leb_refl; reflexivity. Qed.
  (** Nor is anything in an expression that ends where the text does. *)
  Theorem C99_last : forall e o, map_at (snd (full_span e)) = None -> locate e o = None.
  Proof. intros e o E. assert (R : range e = None) by (unfold LocateModel.range, ends; rewrite E; destruct (starts map_at _); reflexivity). destruct e; cbn [LocateModel.locate]; rewrite R; reflexivity. Qed.
End Locate.

(** ** Examples *)
Definition token_at (l : list (N * N)) (p : N) : option (text * (N * N)) :=
  match find (fun t => ((fst t <=? p) && (p <? snd t))%bool) l with Some t => Some (bs "a.sqf", t) | None => None end.
(** <<_x setDamage 1;[_y, 2] call f;>> and a newline *)
Definition ex_map := token_at [(0, 2); (2, 3); (3, 12); (12, 13); (13, 14); (14, 15); (15, 16); (16, 18); (18, 19); (19, 20); (20, 21); (21, 22); (22, 23); (23, 27); (27, 28); (28, 29); (29, 30); (30, 31)].
Definition ex_set : expr := EBinary (BNamed (bs "setDamage")) (EVar (bs "_x") (0, 2)) (ENumber 0 (13, 14)) (3, 12).
Definition ex_call : expr := EBinary (BNamed (bs "call")) (EArray [EVar (bs "_y") (16, 18); ENumber 0 (20, 21)] (16, 21)) (EVar (bs "f") (28, 29)) (23, 27).
Definition ex_script : list stmt := [SExpr ex_set (0, 14); SExpr ex_call (15, 29)].
Ltac place := split; [eexists _, _; vm_compute; reflexivity|split; [eexists _, _; vm_compute; reflexivity|vm_compute; reflexivity]].
Example C99_script :
  in_turn ex_map (map stmt_expr ex_script) 0 30 /\ laid_out ex_map ex_set /\ laid_out ex_map ex_call /\
  map (fun o => hover ex_map ex_script o) [0; 3; 8; 23; 26; 28] = [None; Some (bs "setDamage"); Some (bs "setDamage"); Some (bs "call"); Some (bs "call"); None] /\
  locate_script ex_map ex_script 17 = Some (EVar (bs "_y") (16, 18)).
Proof.
  split; [|split; [|split; [|split]]]; try (vm_compute; reflexivity).
  - cbn [ex_script map stmt_expr in_turn]. exists 0, 15. split; [place|]. split; [discriminate|]. exists 15, 30. split; [place|]. split; vm_compute; discriminate.
  - eapply (lay_binary ex_map _ _ _ _ 0 3 3 12 13 15); try (vm_compute; (reflexivity || discriminate)); try place; econstructor; place.
  - eapply (lay_binary ex_map _ _ _ _ 15 22 23 27 28 30); try (vm_compute; (reflexivity || discriminate)); try place; [|econstructor; place].
    eapply (lay_array ex_map _ _ 15 22); [place| |repeat constructor; econstructor; place].
    cbn [in_turn]. exists 16, 19. split; [place|]. split; [discriminate|]. exists 20, 22. split; [place|]. split; vm_compute; discriminate.
Qed.
(** Hovering over an operator right behind its left operand shows nothing: <<a+b;>>. *)
Theorem C99_tight_refuted : let m := token_at [(0, 1); (1, 2); (2, 3); (3, 4)] in
  hover m [SExpr (EBinary BAdd (EVar (bs "a") (0, 1)) (EVar (bs "b") (2, 3)) (1, 2)) (0, 3)] 1 = None.
Proof. vm_compute. reflexivity. Qed.
(** An expression that comes from another file is found at the cursor's place in the file at hand: <<#include "b.hpp">>, which holds <<allPlayers apply f;>>, before <<_x = 1;>>. *)
Theorem C99_included_refuted : exists m c, (forall p f s e, p < 20 -> m p = Some (f, (s, e)) -> f = bs "b.hpp") /\ (forall p f s e, 20 <= p -> m p = Some (f, (s, e)) -> f = bs "a.sqf") /\
  (forall st, In st c -> snd (full_span (stmt_expr st)) < 20 \/ 20 <= fst (full_span (stmt_expr st))) /\ hover m c 12 = Some (bs "apply").
Proof.
  exists (fun p => if p <? 20 then match token_at [(0, 10); (10, 11); (11, 16); (16, 17); (17, 18); (18, 19); (19, 20)] p with Some (_, t) => Some (bs "b.hpp", t) | None => None end
              else match token_at [(17, 19); (19, 20); (20, 21); (21, 22); (22, 23); (23, 24)] (p - 3) with Some (_, t) => Some (bs "a.sqf", t) | None => None end).
  exists [SExpr (EBinary (BNamed (bs "apply")) (ENular (bs "allPlayers") (0, 10)) (EVar (bs "f") (17, 18)) (11, 16)) (0, 18); SLocal (bs "_x") (ENumber 0 (25, 26)) (20, 26)].
  split; [|split; [|split; [|vm_compute; reflexivity]]].
  - intros p f s e B E. apply N.ltb_lt in B. rewrite B in E. destruct (token_at _ p) as [[? ?]|]; [|discriminate E]. injection E as <- _ . reflexivity.
  - intros p f s e B E. apply N.ltb_ge in B. rewrite B in E. destruct (token_at _ (p - 3)) as [[? ?]|]; [|discriminate E]. injection E as <- _ . reflexivity.
  - intros st [<-|[<-|[]]]; vm_compute; [left; reflexivity|right; discriminate].
Qed.
Print Assumptions C99_sound.
Print Assumptions C99_hover.
Print Assumptions C99_first_char.
Print Assumptions C99_last.
Print Assumptions C99_tight_refuted.
Print Assumptions C99_included_refuted.
