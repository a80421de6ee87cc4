(** Proofs about rapified configs, part 1: the writer equals a pure encoder and never fails. *)
From Verif Require Import Base.Tactics Base.Bytes Io.Model Io.Spec Io.Proofs Config.RapModel Config.RapTree.
Local Open Scope N_scope.

(** ** Induction over classes and items *)
Definition Pprop (P : class -> Prop) (p : property) : Prop := match p with PClass c => P c | _ => True end.

Section ClassInd.
  Context (P : class -> Prop)
    (HR : forall ps, Forall (Pprop P) ps -> P (Root ps))
    (HL : forall name parent ps m, Forall (Pprop P) ps -> P (Local name parent ps m))
    (HE : forall name, P (External name)).
  Fixpoint class_ind' (c : class) : P c :=
    let go := fix go (ps : list property) : Forall (Pprop P) ps :=
      match ps with
      | [] => Forall_nil _
      | p :: r => Forall_cons p
          (match p return Pprop P p with PClass c' => class_ind' c' | Entry _ _ _ => I | Delete _ => I | MissingSemicolon _ => I end)
          (go r)
      end in
    match c with
    | Root ps => HR ps (go ps)
    | Local name parent ps m => HL name parent ps m (go ps)
    | External name => HE name
    end.
End ClassInd.

Section ItemInd.
  Context (P : item -> Prop)
    (HS : forall s, P (IStr s)) (HN : forall n, P (INum n))
    (HA : forall l, Forall P l -> P (IArr l)) (HI : P IInvalid).
  Fixpoint item_ind' (i : item) : P i :=
    match i with
    | IStr s => HS s
    | INum n => HN n
    | IArr l => HA l ((fix go (l : list item) : Forall P l :=
        match l with [] => Forall_nil _ | e :: r => Forall_cons e (item_ind' e) (go r) end) l)
    | IInvalid => HI
    end.
End ItemInd.

(** ** Pure encoder *)
Definition cint (n : nat) : bytes :=
  match write_compressed_int (as_u32 (N.of_nat n)) with Some b => b | None => [] end.

Lemma as_u32_lt n : as_u32 n < 4294967296.
Proof. unfold as_u32. apply N.mod_lt. lia. Qed.

Lemma write_len_ok n : write_len n = Ok (cint n, blen (cint n)).
Proof.
  unfold write_len, cint. destruct (write_cint_total _ (as_u32_lt (N.of_nat n))) as [r ->]. reflexivity.
Qed.
Lemma len_len_ok n : len_len n = Ok (blen (cint n)).
Proof.
  unfold len_len, cint. destruct (write_cint_total _ (as_u32_lt (N.of_nat n))) as [r Hr].
  rewrite Hr. unfold compressed_int_len. unfold write_compressed_int in Hr. now rewrite (len_matches _ _ _ Hr).
Qed.

Definition enc_number (n : number) : bytes := fst (number_rapify n).
Lemma number_rapify_ok n : number_rapify n = (enc_number n, number_len n).
Proof. destruct n; reflexivity. Qed.
Lemma number_len_ok n : number_len n = blen (enc_number n).
Proof. destruct n; unfold enc_number; cbn [number_rapify fst number_len]; unfold blen, i32_bytes, i64_bytes, u32_bytes, u64_bytes; now rewrite le_bytes_length. Qed.

Definition icode (i : item) : N :=
  match i with IStr _ => 0 | INum n => number_code n | _ => 3 end.
Fixpoint enc_item (i : item) : bytes :=
  match i with
  | IStr s => s ++ [0]
  | INum n => enc_number n
  | IArr l => cint (length l) ++ flat_map (fun e => icode e :: enc_item e) l
  | IInvalid => []
  end.
Definition enc_items (l : list item) : bytes := flat_map (fun e => icode e :: enc_item e) l.
Definition enc_array (l : list item) : bytes := cint (length l) ++ enc_items l.

Lemma blen_cstr s : blen (write_cstring s) = blen s + 1.
Proof. unfold write_cstring. now rewrite blen_app. Qed.

Lemma item_len_arr l : item_len (IArr l) = (k <- len_len (length l) ;; s <- items_len l ;; Ok (k + s)).
Proof. reflexivity. Qed.
Lemma item_rapify_arr l : item_rapify (IArr l) =
  (kw <- write_len (length l) ;; let (out0, w0) := kw in items_rapify l out0 w0).
Proof. reflexivity. Qed.

Lemma tree_items_cons e r vs : tree_items (e :: r) = Some vs ->
  exists v vr, tree_item e = Some v /\ tree_items r = Some vr /\ vs = v :: vr.
Proof.
  unfold tree_items. cbn [fold_right]. destruct (tree_item e) as [v|]; [|discriminate].
  destruct (fold_right _ _ r) as [vr|]; [|discriminate]. cbn. intro H. exists v, vr. split; [auto|]. split; congruence.
Qed.

Definition item_good (i : item) : Prop :=
  forall v, tree_item i = Some v ->
  item_code i = Ok (icode i) /\ item_len i = Ok (blen (enc_item i)) /\
  item_rapify i = Ok (enc_item i, blen (enc_item i)).

Lemma items_good l : Forall item_good l -> forall vs, tree_items l = Some vs ->
  items_len l = Ok (blen (enc_items l)) /\
  forall out w, items_rapify l out w = Ok (out ++ enc_items l, w + blen (enc_items l)).
Proof.
  induction 1 as [|e r He Hr IH]; intros vs Hv.
  - cbn. split; [reflexivity|]. intros. now rewrite app_nil_r, N.add_0_r.
  - apply tree_items_cons in Hv as (v & vr & Ev & Evr & ->).
    destruct (He _ Ev) as (Hc & Hl & Hw). destruct (IH _ Evr) as [Hrl Hrw].
    cbn [items_len items_rapify]. rewrite Hc, Hl, Hw, Hrl. cbn [bind].
    change (enc_items (e :: r)) with ((icode e :: enc_item e) ++ enc_items r).
    rewrite blen_app, blen_cons. split; [f_equal; lia|].
    intros out w. rewrite Hrw. rewrite <- app_assoc. cbn [app].
    do 2 f_equal. lia.
Qed.

Lemma item_good_all i : item_good i.
Proof.
  induction i as [s|n|l IH|] using item_ind'; intros v Hv.
  - cbn. unfold str_len, str_rapify, write_cstring. rewrite blen_app. auto.
  - cbn. rewrite number_rapify_ok, number_len_ok. auto.
  - cbn [tree_item] in Hv. change (fold_right _ _ l) with (tree_items l) in Hv.
    destruct (tree_items l) as [vs|] eqn:E; [|discriminate].
    destruct (items_good l IH _ E) as [Hl Hw].
    rewrite item_len_arr, item_rapify_arr, len_len_ok, write_len_ok, Hl. cbn [bind].
    rewrite Hw. change (enc_item (IArr l)) with (cint (length l) ++ enc_items l). rewrite blen_app. auto.
  - discriminate.
Qed.

Lemma array_good l vs : tree_items l = Some vs ->
  array_len l = Ok (blen (enc_array l)) /\ array_rapify l = Ok (enc_array l, blen (enc_array l)).
Proof.
  intro H. destruct (items_good l) with (vs := vs) as [Hl Hw]; [|exact H|].
  { apply Forall_forall. intros. apply item_good_all. }
  assert (HL : array_len l = Ok (blen (enc_array l))).
  { unfold array_len, enc_array. rewrite len_len_ok, Hl, blen_app. reflexivity. }
  split; [exact HL|]. unfold array_rapify. rewrite write_len_ok. cbn [bind]. rewrite Hw. cbn [bind].
  rewrite HL. cbn [bind]. unfold enc_array. rewrite blen_app, N.eqb_refl. reflexivity.
Qed.

Definition enc_value (v : value) : bytes :=
  match v with
  | VStr s | VExpr s => s ++ [0]
  | VNum n => enc_number n
  | VArr _ l => enc_array l
  | _ => []
  end.

Definition value_tree_ok (v : value) : Prop :=
  match v with
  | VArr _ l => exists vs, tree_items l = Some vs
  | VUnexpectedArr _ _ | VInvalid => False
  | _ => True
  end.

Lemma value_good v : value_tree_ok v ->
  value_len v = Ok (blen (enc_value v)) /\ value_rapify v = Ok (enc_value v, blen (enc_value v)).
Proof.
  assert (K : forall (n : N) (b : bytes), n = blen b ->
    (n0 <- Ok (blen b) ;; if n =? n0 then Ok (b, n) else Panic) = Ok (b, blen b)).
  { intros n b ->. cbn. now rewrite N.eqb_refl. }
  destruct v as [s|n|s|x l|x l|]; cbn [value_tree_ok]; try contradiction; intro H;
    unfold value_len, value_rapify; cbn [enc_value bind].
  - unfold str_len, str_rapify, write_cstring. rewrite blen_app. change (blen [0]) with 1.
    cbn [value_len]. unfold str_len. split; [auto|]. cbn [bind]. now rewrite N.eqb_refl.
  - rewrite number_rapify_ok. cbn [value_len]. rewrite number_len_ok. split; [auto|]. cbn [bind]. now rewrite N.eqb_refl.
  - unfold str_len, str_rapify, write_cstring. rewrite blen_app. change (blen [0]) with 1.
    cbn [value_len]. unfold str_len. split; [auto|]. cbn [bind]. now rewrite N.eqb_refl.
  - destruct H as [vs H]. destruct (array_good l vs H) as [H1 H2]. rewrite H2. cbn [bind value_len]. rewrite H1.
    split; [auto|]. cbn [bind]. now rewrite N.eqb_refl.
Qed.

(** Head of a property: everything but a nested body; [w] is the stored class offset. *)
Definition pname (p : property) : bytes :=
  match p with
  | PClass (Local n _ _ _) | PClass (External n) | Delete n | MissingSemicolon n | Entry n _ _ => n
  | PClass (Root _) => []
  end.
Definition pcode (p : property) : bytes := match prop_code p with Ok b => b | _ => [] end.
Definition payload (p : property) (w : N) : bytes :=
  match p with
  | Entry _ v _ => enc_value v
  | PClass (Local _ _ _ _) => u32_bytes (as_u32 w)
  | _ => []
  end.
Definition head (p : property) (w : N) : bytes := pcode p ++ pname p ++ [0] ++ payload p w.
Definition heads_len (ps : list property) : N := fold_right (fun p n => blen (head p 0) + n) 0 ps.

Fixpoint enc_class (c : class) (off : N) : bytes :=
  let body (parent : option bytes) (ps : list property) : bytes :=
    let h0 := match parent with Some p => p | None => [] end ++ [0] ++ cint (length ps) in
    let '(h, b, e) :=
      (fix go (ps : list property) (cur : N) : bytes * bytes * N :=
         match ps with
         | [] => ([], [], cur)
         | p :: r =>
             let b := match p with PClass c' => match c' with Local _ _ _ _ => enc_class c' cur | _ => [] end | _ => [] end in
             let '(h', b', e) := go r (cur + blen b) in
             (head p cur ++ h', b ++ b', e)
         end) ps (off + blen h0 + heads_len ps + 4) in
    h0 ++ h ++ u32_bytes (as_u32 e) ++ b in
  match c with
  | Local _ parent ps _ => body parent ps
  | Root ps => body None ps
  | External _ => []
  end.

Definition nested (p : property) (cur : N) : bytes :=
  match p with PClass c' => match c' with Local _ _ _ _ => enc_class c' cur | _ => [] end | _ => [] end.
Fixpoint enc_props (ps : list property) (cur : N) : bytes * bytes * N :=
  match ps with
  | [] => ([], [], cur)
  | p :: r =>
      let '(h', b', e) := enc_props r (cur + blen (nested p cur)) in
      (head p cur ++ h', nested p cur ++ b', e)
  end.
Definition head0 (parent : option bytes) (ps : list property) : bytes :=
  match parent with Some p => p | None => [] end ++ [0] ++ cint (length ps).
Definition enc_body (parent : option bytes) (ps : list property) (off : N) : bytes :=
  let '(h, b, e) := enc_props ps (off + blen (head0 parent ps) + heads_len ps + 4) in
  head0 parent ps ++ h ++ u32_bytes (as_u32 e) ++ b.

Lemma enc_class_local n parent ps m off : enc_class (Local n parent ps m) off = enc_body parent ps off.
Proof. reflexivity. Qed.
Lemma enc_class_root ps off : enc_class (Root ps) off = enc_body None ps off.
Proof. reflexivity. Qed.

(** Named copies of the nested loops of the model. *)
Fixpoint cl_props (ps : list property) : res N :=
  match ps with
  | [] => Ok 0
  | p :: r =>
      nm <- prop_name p ;;
      pl <- prop_len p ;;
      cl <- match p with PClass c' => class_len c' | _ => Ok 0 end ;;
      m <- cl_props r ;;
      Ok (blen nm + 1 + pl + cl + m)
  end.
Definition cl_body (parent : option bytes) (ps : list property) : res N :=
  k <- len_len (length ps) ;;
  s <- cl_props ps ;;
  Ok (match parent with Some p => blen p | None => 0 end + 1 + 4 + k + s).
Lemma class_len_local n parent ps m : class_len (Local n parent ps m) = cl_body parent ps.
Proof. reflexivity. Qed.
Lemma class_len_root ps : class_len (Root ps) = cl_body None ps.
Proof. reflexivity. Qed.

Definition cr_step (p : property) (st : loop_state) : res loop_state :=
  code <- prop_code p ;;
  nm <- prop_name p ;;
  let out := st_out st ++ code ++ write_cstring nm in
  let written := st_written st + blen code + (blen nm + 1) in
  let check (st' : loop_state) : res loop_state :=
    n <- prop_len p ;;
    if st_written st' - st_written st =? n + blen nm + 1 then Ok st' else Panic in
  match p with
  | Entry _ v _ =>
      bn <- value_rapify v ;;
      let (b, n) := bn in
      check (mkst (out ++ b) (written + n) (st_class_offset st) (st_bodies st))
  | PClass c' =>
      match c' with
      | Local _ _ _ _ =>
          let out := out ++ u32_bytes (as_u32 (st_class_offset st)) in
          let written := written + 4 in
          len <- class_len c' ;;
          bn <- class_rapify c' (st_class_offset st) ;;
          let (b, body_size) := bn in
          buf <- cursor_fill len b ;;
          if body_size =? len
          then check (mkst out written (st_class_offset st + body_size) (st_bodies st ++ [buf]))
          else Panic
      | _ => check (mkst out written (st_class_offset st) (st_bodies st))
      end
  | Delete _ => Ok (mkst out written (st_class_offset st) (st_bodies st))
  | MissingSemicolon _ => Panic
  end.
Fixpoint cr_props (ps : list property) (st : loop_state) : res loop_state :=
  match ps with
  | [] => Ok st
  | p :: r => st' <- cr_step p st ;; cr_props r st'
  end.
Definition cr_body (parent : option bytes) (ps : list property) (offset : N) : res (bytes * N) :=
  let (out0, w0) := match parent with
                    | Some p => (write_cstring p, blen p + 1)
                    | None => ([0], 1)
                    end in
  kw <- write_len (length ps) ;;
  let (outk, k) := kw in
  properties_len <- props_len ps ;;
  st <- cr_props ps (mkst (out0 ++ outk) (w0 + k) (offset + (w0 + k) + properties_len + 4) []) ;;
  if st_written st - (w0 + k) =? properties_len then
    Ok (st_out st ++ u32_bytes (as_u32 (st_class_offset st)) ++ concat (st_bodies st),
        st_written st + 4 + blen (concat (st_bodies st)))
  else Panic.

Lemma bind_assoc {A B C} (r : res A) (k : A -> res B) (h : B -> res C) :
  bind (bind r k) h = bind r (fun a => bind (k a) h).
Proof. destruct r; reflexivity. Qed.
Lemma bind_ext {A B} (r : res A) (k h : A -> res B) : (forall a, k a = h a) -> bind r k = bind r h.
Proof. intro H. destruct r; cbn; auto. Qed.

Definition cr_loop : list property -> loop_state -> res loop_state :=
  fix go (ps : list property) (st : loop_state) : res loop_state :=
             match ps with
             | [] => Ok st
             | p :: r =>
                 let pre_write := st_written st in
                 code <- prop_code p ;;
                 nm <- prop_name p ;;
                 let out := st_out st ++ code ++ write_cstring nm in
                 let written := st_written st + blen code + (blen nm + 1) in
                 let check (st' : loop_state) : res loop_state :=
                   n <- prop_len p ;;
                   if st_written st' - pre_write =? n + blen nm + 1 then Ok st' else Panic in
                 match p with
                 | Entry _ v _ =>
                     bn <- value_rapify v ;;
                     let (b, n) := bn in
                     st' <- check (mkst (out ++ b) (written + n) (st_class_offset st) (st_bodies st)) ;;
                     go r st'
                 | PClass c' =>
                     match c' with
                     | Local _ _ _ _ =>
                         let out := out ++ u32_bytes (as_u32 (st_class_offset st)) in
                         let written := written + 4 in
                         len <- class_len c' ;;
                         bn <- class_rapify c' (st_class_offset st) ;;
                         let (b, body_size) := bn in
                         buf <- cursor_fill len b ;;
                         st' <- (if body_size =? len
                                 then check (mkst out written (st_class_offset st + body_size)
                                               (st_bodies st ++ [buf]))
                                 else Panic) ;;
                         go r st'
                     | _ =>
                         st' <- check (mkst out written (st_class_offset st) (st_bodies st)) ;;
                         go r st'
                     end
                 | Delete _ => go r (mkst out written (st_class_offset st) (st_bodies st))
                 | MissingSemicolon _ => Panic
                 end
             end.
Lemma cr_loop_eq ps : forall st, cr_loop ps st = cr_props ps st.
Proof.
  induction ps as [|p r IH]; intro st; [reflexivity|].
  cbn [cr_props cr_loop]. unfold cr_step. cbv zeta. rewrite bind_assoc. apply bind_ext; intro code.
  rewrite bind_assoc. apply bind_ext; intro nm.
  destruct p as [n v x|c|n|n].
  - rewrite bind_assoc. apply bind_ext; intros [b k]. apply bind_ext; intro. apply IH.
  - destruct c as [ps|n pa ps m|n].
    + apply bind_ext; intro; apply IH.
    + rewrite bind_assoc. apply bind_ext; intro len. rewrite bind_assoc. apply bind_ext; intros [b k].
      rewrite bind_assoc. apply bind_ext; intro buf. apply bind_ext; intro; apply IH.
    + apply bind_ext; intro; apply IH.
  - cbn [bind]. apply IH.
  - reflexivity.
Qed.
Lemma class_rapify_local n parent ps m off : class_rapify (Local n parent ps m) off = cr_body parent ps off.
Proof.
  transitivity ( let (out0, w0) := match parent with
                      | Some p => (write_cstring p, blen p + 1)
                      | None => ([0], 1)
                      end in
    kw <- write_len (length ps) ;;
    let (outk, k) := kw in
    properties_len <- props_len ps ;;
    st <- cr_loop ps (mkst (out0 ++ outk) (w0 + k) (off + (w0 + k) + properties_len + 4) []) ;;
    if st_written st - (w0 + k) =? properties_len then
      Ok (st_out st ++ u32_bytes (as_u32 (st_class_offset st)) ++ concat (st_bodies st),
          st_written st + 4 + blen (concat (st_bodies st)))
    else Panic); [reflexivity|].
  unfold cr_body. destruct parent; apply bind_ext; intros [outk k]; apply bind_ext; intro pl;
    rewrite cr_loop_eq; reflexivity.
Qed.
Lemma class_rapify_root ps off : class_rapify (Root ps) off = cr_body None ps off.
Proof. rewrite <- (class_rapify_local [] None ps false). reflexivity. Qed.

Lemma u32_blen w : blen (u32_bytes w) = 4.
Proof. unfold blen, u32_bytes. now rewrite le_bytes_length. Qed.

(** ** Properties without error nodes *)
Definition prop_tree_ok (p : property) : Prop := exists e, tree_entry tree_class p = Some e.

Lemma tree_props_cons p r es : tree_props (p :: r) = Some es ->
  exists e er, tree_entry tree_class p = Some e /\ tree_props r = Some er /\ es = e :: er.
Proof.
  unfold tree_props. cbn [fold_right]. destruct (tree_entry tree_class p) as [v|]; [|discriminate].
  destruct (fold_right _ _ r) as [vr|]; [|discriminate]. cbn. intro H. exists v, vr. split; [auto|]. split; congruence.
Qed.

Lemma entry_value name v x e : tree_entry tree_class (Entry name v x) = Some e -> value_tree_ok v.
Proof.
  destruct v; cbn; auto; try discriminate. destruct (tree_items l); [eauto|discriminate].
Qed.

Lemma head_len p w : blen (head p w) = blen (head p 0).
Proof.
  unfold head. rewrite !blen_app. do 3 f_equal. destruct p as [| [| |] | |]; cbn [payload]; rewrite ?u32_blen; auto.
Qed.

Lemma prop_facts p e : tree_entry tree_class p = Some e ->
  prop_code p = Ok (pcode p) /\ prop_name p = Ok (pname p) /\
  prop_len p = Ok (blen (pcode p) + blen (payload p 0)) /\
  blen (pname p) + 1 + (blen (pcode p) + blen (payload p 0)) = blen (head p 0).
Proof.
  intro H. assert (Hc : prop_code p = Ok (pcode p)).
  { unfold pcode. destruct p as [n v x|c|n|n]; cbn [prop_code].
    - apply entry_value in H. destruct v; cbn in *; auto; contradiction.
    - destruct c; reflexivity.
    - reflexivity.
    - discriminate. }
  split; [exact Hc|]. split; [|split].
  - destruct p as [n v x|[| |]|n|n]; try reflexivity. discriminate.
  - unfold prop_len. rewrite Hc. cbn [bind].
    destruct p as [n v x|[| |]|n|n]; cbn [payload]; try reflexivity; try discriminate.
    apply entry_value in H. destruct (value_good v H) as [-> _]. reflexivity.
  - unfold head. rewrite !blen_app. change (blen [0]) with 1. lia.
Qed.

Definition class_good (c : class) : Prop :=
  match c with
  | External _ => True
  | Local _ _ ps _ | Root ps =>
      forall es, tree_props ps = Some es -> forall off,
      class_len c = Ok (blen (enc_class c off)) /\
      class_rapify c off = Ok (enc_class c off, blen (enc_class c off))
  end.

Lemma tree_class_local n pa ps m e : tree_class (Local n pa ps m) = Some e ->
  exists es, tree_props ps = Some es /\ e = RapSpec.RClass n pa es.
Proof.
  cbn [tree_class]. change (fold_right _ _ ps) with (tree_props ps).
  destruct (tree_props ps) as [es|]; [|discriminate]. cbn. intro H. exists es. split; congruence.
Qed.

Lemma props_len_good ps es : tree_props ps = Some es -> props_len ps = Ok (heads_len ps).
Proof.
  revert es. induction ps as [|p r IH]; intros es H; [reflexivity|].
  apply tree_props_cons in H as (e & er & He & Hr & ->).
  destruct (prop_facts p e He) as (_ & Hn & Hl & Hs).
  cbn [props_len]. rewrite Hn, Hl, (IH _ Hr). cbn [bind heads_len fold_right]. f_equal. fold (heads_len r). lia.
Qed.

Lemma nested_len p cur e : Pprop class_good p -> tree_entry tree_class p = Some e ->
  match p with PClass c' => class_len c' | _ => Ok 0 end = Ok (blen (nested p cur)).
Proof.
  intros Hg He. destruct p as [n v x|[|n pa ps m|]|n|n]; try reflexivity; try discriminate.
  apply (tree_class_local n pa ps m) in He as (es & He & _). destruct (Hg es He cur) as [H _]. exact H.
Qed.

Lemma cl_props_good ps : Forall (Pprop class_good) ps -> forall es cur, tree_props ps = Some es ->
  let '(h, b, e) := enc_props ps cur in
  cl_props ps = Ok (blen h + blen b) /\ e = cur + blen b /\ blen h = heads_len ps.
Proof.
  induction 1 as [|p r Hp Hr IH]; intros es cur H; [cbn; repeat split; lia|].
  apply tree_props_cons in H as (e & er & He & Her & ->).
  destruct (prop_facts p e He) as (_ & Hn & Hl & Hs).
  pose proof (nested_len p cur e Hp He) as Hnl.
  cbn [enc_props]. specialize (IH er (cur + blen (nested p cur)) Her).
  destruct (enc_props r _) as [[h b] e']. destruct IH as (I1 & I2 & I3).
  cbn [cl_props heads_len fold_right]. fold (heads_len r).
  rewrite Hn, Hl, I1, Hnl. cbn [bind]. rewrite !blen_app, head_len.
  repeat split; [f_equal; lia|lia|lia].
Qed.

Lemma cursor_fill_exact b : cursor_fill (blen b) b = Ok b.
Proof. unfold cursor_fill. rewrite N.ltb_irrefl, N.sub_diag. cbn. now rewrite app_nil_r. Qed.

Lemma cr_step_good p e st : Pprop class_good p -> tree_entry tree_class p = Some e ->
  exists bs, concat bs = nested p (st_class_offset st) /\
  cr_step p st = Ok (mkst (st_out st ++ head p (st_class_offset st))
    (st_written st + blen (head p 0)) (st_class_offset st + blen (nested p (st_class_offset st)))
    (st_bodies st ++ bs)).
Proof.
  intros Hg He. destruct (prop_facts p e He) as (Hc & Hn & Hl & Hs).
  unfold cr_step. rewrite Hc, Hn, Hl. cbv zeta. cbn [bind].
  assert (Hout : forall x, (st_out st ++ pcode p ++ write_cstring (pname p)) ++ x
      = st_out st ++ pcode p ++ pname p ++ [0] ++ x)
    by (intro x; unfold write_cstring; rewrite <- !app_assoc; reflexivity).
  destruct p as [n v x|c|n|n].
  - destruct (value_good v (entry_value _ _ _ _ He)) as [_ Hv]. rewrite Hv. cbn [bind st_written].
    exists []. split; [reflexivity|]. cbn [nested]. rewrite Hout, app_nil_r, N.add_0_r.
    cbn [payload] in *.
    match goal with |- context [?a =? ?b] => replace (a =? b) with true by (symmetry; apply N.eqb_eq; lia) end.
    unfold head. cbn [payload]. f_equal. f_equal. rewrite !blen_app. change (blen [0]) with 1. lia.
  - destruct c as [ps|n pa ps m|n]; [discriminate| |].
    + apply (tree_class_local n pa ps m) in He as (es & He & _). destruct (Hg es He (st_class_offset st)) as [Hg1 Hg2].
      rewrite Hg1, Hg2. cbn [bind]. rewrite cursor_fill_exact, N.eqb_refl. cbn [bind st_written].
      cbn [payload] in *. rewrite u32_blen in *.
      match goal with |- context [?a =? ?b] => replace (a =? b) with true by (symmetry; apply N.eqb_eq; lia) end.
      exists [enc_class (Local n pa ps m) (st_class_offset st)].
      split; [cbn [concat]; now rewrite app_nil_r|].
      f_equal. f_equal; [unfold head; cbn [payload]; rewrite Hout; reflexivity|].
      unfold head. cbn [payload]. rewrite !blen_app, u32_blen. change (blen [0]) with 1. lia.
    + exists []. split; [reflexivity|]. cbn [payload st_written] in *. rewrite blen_nil in *.
      match goal with |- context [?a =? ?b] => replace (a =? b) with true by (symmetry; apply N.eqb_eq; lia) end.
      unfold head. cbn [payload nested]. rewrite !app_nil_r. f_equal.
      f_equal; [rewrite ?blen_nil, !blen_app; change (blen [0]) with 1; lia|rewrite ?blen_nil; lia].
  - exists []. split; [reflexivity|]. cbn [payload nested] in *. rewrite blen_nil in *.
    unfold head. cbn [payload]. rewrite !app_nil_r. f_equal.
    f_equal; [rewrite !blen_app; change (blen [0]) with 1; lia|lia].
  - discriminate.
Qed.

Lemma cr_props_good ps : Forall (Pprop class_good) ps -> forall es st, tree_props ps = Some es ->
  let '(h, b, e) := enc_props ps (st_class_offset st) in
  exists bs, concat bs = b /\
  cr_props ps st = Ok (mkst (st_out st ++ h) (st_written st + heads_len ps) e (st_bodies st ++ bs)).
Proof.
  induction 1 as [|p r Hp Hr IH]; intros es st H.
  - cbn. exists []. split; [reflexivity|]. rewrite !app_nil_r, N.add_0_r. now destruct st.
  - apply tree_props_cons in H as (e & er & He & Her & ->).
    destruct (cr_step_good p e st Hp He) as (bs1 & Hb1 & Hs1).
    cbn [enc_props cr_props]. rewrite Hs1. cbn [bind].
    match goal with |- context [cr_props r ?s] => specialize (IH er s Her) end. cbn [st_class_offset] in IH.
    destruct (enc_props r _) as [[h b] e']. destruct IH as (bs & Hb & IH). exists (bs1 ++ bs).
    split; [rewrite concat_app, Hb1, Hb; reflexivity|]. rewrite IH. cbn [st_out st_written st_bodies].
    cbn [heads_len fold_right]. fold (heads_len r). rewrite <- !app_assoc, N.add_assoc. reflexivity.
Qed.

Lemma body_good parent ps es off : Forall (Pprop class_good) ps -> tree_props ps = Some es ->
  cl_body parent ps = Ok (blen (enc_body parent ps off)) /\
  cr_body parent ps off = Ok (enc_body parent ps off, blen (enc_body parent ps off)).
Proof.
  intros HF H. set (start := off + blen (head0 parent ps) + heads_len ps + 4).
  assert (Hw0 : blen (head0 parent ps) = match parent with Some p => blen p + 1 | None => 1 end + blen (cint (length ps))).
  { unfold head0. destruct parent; rewrite !blen_app; change (blen [0]) with 1; rewrite ?blen_nil; lia. }
  split.
  - pose proof (cl_props_good ps HF es start H) as K.
    unfold cl_body. rewrite len_len_ok. cbn [bind].
    unfold enc_body. fold start. destruct (enc_props ps start) as [[h b] e]. destruct K as (K1 & K2 & K3).
    rewrite K1. cbn [bind]. rewrite !blen_app, u32_blen, Hw0. destruct parent; f_equal; lia.
  - pose proof (cl_props_good ps HF es start H) as K.
    unfold cr_body.
    assert (E : (match parent with Some p => (write_cstring p, blen p + 1) | None => ([0], 1) end)
      = (match parent with Some p => p | None => [] end ++ [0], match parent with Some p => blen p + 1 | None => 1 end))
      by (destruct parent; reflexivity). rewrite E. clear E.
    rewrite write_len_ok. cbn [bind]. rewrite (props_len_good ps es H). cbn [bind].
    rewrite <- Hw0. fold start.
    match goal with |- context [cr_props ps ?s] => pose proof (cr_props_good ps HF es s H) as L end.
    cbn [st_class_offset] in L. unfold enc_body. fold start.
    destruct (enc_props ps start) as [[h b] e]. destruct K as (K1 & K2 & K3). destruct L as (bs & Lb & ->).
    cbn [bind st_written st_out st_bodies st_class_offset]. rewrite app_nil_l, Lb.
    match goal with |- context [?a =? ?b] => replace (a =? b) with true by (symmetry; apply N.eqb_eq; lia) end.
    f_equal. f_equal; [unfold head0; rewrite <- !app_assoc; reflexivity|].
    rewrite !blen_app, u32_blen, K3. lia.
Qed.

Lemma class_good_all c : class_good c.
Proof.
  induction c as [ps IH|n pa ps m IH|n] using class_ind'; cbn [class_good]; auto; intros es H off.
  - rewrite class_len_root, class_rapify_root, enc_class_root. eapply body_good; eauto.
  - rewrite class_len_local, class_rapify_local, enc_class_local. eapply body_good; eauto.
Qed.

(** ** The whole file *)
Definition enc_config (c : config) : bytes :=
  let b := enc_body None c 16 in
  [0; 114; 97; 80] ++ [0; 0; 0; 0; 8; 0; 0; 0] ++ u32_bytes (as_u32 (16 + as_u32 (blen b))) ++ b ++ [0; 0; 0; 0].

Lemma config_good c es : tree c = Some es ->
  config_len c = Ok (blen (enc_config c)) /\ config_rapify c = Ok (enc_config c, blen (enc_config c)).
Proof.
  intro H. destruct (class_good_all (Root c) es H 16) as [H1 H2].
  assert (HL : config_len c = Ok (blen (enc_config c))).
  { unfold config_len. rewrite H1. cbn [bind]. rewrite enc_class_root. unfold enc_config.
    rewrite !blen_app, u32_blen. cbn [blen length]. change (blen [0;114;97;80]) with 4.
    change (blen [0;0;0;0;8;0;0;0]) with 8. change (blen [0;0;0;0]) with 4. f_equal. lia. }
  split; [exact HL|]. unfold config_rapify. rewrite H1, H2, HL. cbn [bind].
  rewrite cursor_fill_exact, N.eqb_refl. cbn [bind].
  assert (E : blen (enc_class (Root c) 16) + 20 = blen (enc_config c)).
  { unfold config_len in HL. rewrite H1 in HL. cbn [bind] in HL. congruence. }
  rewrite E, N.eqb_refl. reflexivity.
Qed.
