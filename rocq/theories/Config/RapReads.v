(** Proofs about rapified configs, part 2: the encoder's output is a tight raP file of the tree, and a raP
    file describes at most one tree. *)
From Verif Require Import Base.Tactics Base.Bytes Io.Model Io.Spec Io.Proofs Config.RapModel Config.RapTree Config.RapProofs.
From Verif Require Import Config.RapSpec.
Local Open Scope N_scope.

(** ** Elementary readers are deterministic *)
Lemma cstr_det s s' inp rest rest' : cstr s inp rest -> cstr s' inp rest' -> s = s' /\ rest = rest'.
Proof.
  intros [H1 ->] [H2 E].
  assert (K : until_nul (s ++ 0 :: rest) = (s, rest)) by now apply until_nul_app.
  rewrite E, until_nul_app in K by auto. split; congruence.
Qed.

Lemma le_bytes_inj k a b : a < 256 ^ N.of_nat k -> b < 256 ^ N.of_nat k -> le_bytes k a = le_bytes k b -> a = b.
Proof. intros Ha Hb E. rewrite <- (le_val_bytes k a Ha), <- (le_val_bytes k b Hb). now rewrite E. Qed.

Lemma app_len_inj {A} (a b c d : list A) : length a = length b -> a ++ c = b ++ d -> a = b /\ c = d.
Proof.
  revert b; induction a as [|x a IH]; intros [|y b] L E; try discriminate; [auto|].
  cbn in *. injection E as -> E. destruct (IH b) as [-> ->]; auto.
Qed.

Lemma word_det a b inp r s : word a inp r -> word b inp s -> a = b /\ r = s.
Proof.
  intros [Ha ->] [Hb E]. apply app_len_inj in E as [E ->]; [|now rewrite !le_bytes_length].
  split; [|reflexivity]. exact (le_bytes_inj 4 a b Ha Hb E).
Qed.
Lemma dword_det a b inp r s : dword a inp r -> dword b inp s -> a = b /\ r = s.
Proof.
  intros [Ha ->] [Hb E]. apply app_len_inj in E as [E ->]; [|now rewrite !le_bytes_length].
  split; [|reflexivity]. exact (le_bytes_inj 8 a b Ha Hb E).
Qed.

Lemma leb_prefix a x : leb128 a x -> forall b y r s, leb128 b y -> a ++ r = b ++ s -> x = y /\ r = s.
Proof.
  induction 1 as [c Hc|g a v Hg Ha IH]; intros b y r s Hb E.
  - inversion Hb as [c' Hc'|g b' v Hg Hb']; subst; cbn [app] in E; pose proof (f_equal (hd 0) E) as E1; pose proof (f_equal (@tl N) E) as E2; cbn [hd tl] in E1, E2.
    + subst. auto.
    + exfalso; clear - E1 Hc; lia.
  - inversion Hb as [c' Hc'|g' b' v' Hg' Hb']; subst; cbn [app] in E; pose proof (f_equal (hd 0) E) as E1; pose proof (f_equal (@tl N) E) as E2; cbn [hd tl] in E1, E2.
    + exfalso; clear - E1 Hc'; lia.
    + destruct (IH _ _ _ _ Hb' E2) as [-> ->]. split; [lia|auto].
Qed.

Lemma count_det n m inp r s : count n inp r -> count m inp s -> n = m /\ r = s.
Proof.
  intros (a & Ha & ->) (b & Hb & E). destruct (leb_prefix _ _ Ha _ _ _ _ Hb E) as [H ->]. split; [lia|auto].
Qed.

Lemma int_code_det bits v v' w : (0 < bits)%Z -> int_code bits v w -> int_code bits v' w -> v = v'.
Proof.
  intros Hbits [R E] [R' E']. rewrite E in E'.
  assert (Hp : (2 ^ bits = 2 * 2 ^ (bits - 1))%Z).
  { clear - Hbits. rewrite <- Z.pow_succ_r by lia. f_equal. lia. }
  assert (H0 : (0 < 2 ^ (bits - 1))%Z) by (apply Z.pow_pos_nonneg; lia).
  rewrite Hp in E'. remember (2 ^ (bits - 1))%Z as k. clear - R R' E' H0.
  assert (D : ((v - v') mod (2 * k) = 0)%Z) by (rewrite Zminus_mod, E', Z.sub_diag; apply Z.mod_0_l; clear - H0; lia).
  clear E'. apply Z.mod_divide in D; [|clear D; lia]. destruct D as [q D].
  assert (q = 0)%Z by nia. subst q. lia.
Qed.

Lemma scalar_det c v inp r : scalar c v inp r -> forall v' r', scalar c v' inp r' -> v = v' /\ r = r'.
Proof.
  intros H v' r' H'. inversion H; subst; inversion H'; subst.
  - match goal with A : cstr ?w inp r, B : cstr ?w' inp r' |- _ => destruct (cstr_det _ _ _ _ _ A B) as [-> ->] end. auto.
  - match goal with A : word ?w inp r, B : word ?w' inp r' |- _ => destruct (word_det _ _ _ _ _ A B) as [-> ->] end. auto.
  - match goal with A : word ?w inp r, B : word ?w' inp r' |- _ => destruct (word_det _ _ _ _ _ A B) as [-> ->] end.
    split; [|auto]. f_equal. eapply (int_code_det 32); eauto. lia.
  - match goal with A : dword ?w inp r, B : dword ?w' inp r' |- _ => destruct (dword_det _ _ _ _ _ A B) as [-> ->] end.
    split; [|auto]. f_equal. eapply (int_code_det 64); eauto. lia.
Qed.
Lemma scalar_code c v inp r : scalar c v inp r -> c <> 3 /\ c <> 4.
Proof. intro H; inversion H; subst; lia. Qed.

Scheme array_mind := Minimality for array Sort Prop with elems_mind := Minimality for elems Sort Prop.
Combined Scheme array_elems_ind from array_mind, elems_mind.

Lemma array_elems_det :
  (forall l inp r, array l inp r -> forall l' r', array l' inp r' -> l = l' /\ r = r') /\
  (forall l inp r, elems l inp r -> forall l' r', elems l' inp r' -> length l = length l' -> l = l' /\ r = r').
Proof.
  apply array_elems_ind.
  - intros l inp inp1 r Hc _ IH l' r' H'. inversion H' as [l0 i0 i1 r0 Hc' He']; subst.
    destruct (count_det _ _ _ _ _ Hc Hc') as [Hl ->]. eapply IH; eauto.
  - intros inp l' r' H' L. destruct l'; [|discriminate]. inversion H'; subst; auto.
  - intros code v l inp inp1 r Hs _ IH l' r' H' L. destruct l' as [|]; [discriminate|]. inversion H' as [|c2 v2 l2 i2 i3 r2 Hs2 He2|a2 l2 i2 i3 r2 Ha2 He2]; subst.
    + destruct (scalar_det _ _ _ _ Hs _ _ Hs2) as [-> ->]. cbn in L.
      destruct (IH _ _ He2) as [-> ->]; [lia|auto].
    + apply scalar_code in Hs. lia.
  - intros a l inp inp1 r _ IHa _ IH l' r' H' L. destruct l' as [|]; [discriminate|]. inversion H' as [|c2 v2 l2 i2 i3 r2 Hs2 He2|a2 l2 i2 i3 r2 Ha2 He2]; subst.
    + apply scalar_code in Hs2. lia.
    + destruct (IHa _ _ Ha2) as [-> ->]. cbn in L. destruct (IH _ _ He2) as [-> ->]; [lia|auto].
Qed.

Scheme class_mind := Minimality for class Sort Prop with entries_mind := Minimality for entries Sort Prop.
Combined Scheme class_entries_ind from class_mind, entries_mind.

Lemma parent_det p p' s : parent_code p s -> parent_code p' s -> p = p'.
Proof.
  destruct p, p'; cbn; intros H H'; intuition (subst; auto; try contradiction; congruence).
Qed.

Ltac det :=
  repeat match goal with
  | A : cstr ?a ?i ?r, B : cstr ?b ?i ?s |- _ =>
      let E := fresh in let F := fresh in destruct (cstr_det _ _ _ _ _ A B) as [E F]; subst; clear B
  | A : word ?a ?i ?r, B : word ?b ?i ?s |- _ =>
      let E := fresh in let F := fresh in destruct (word_det _ _ _ _ _ A B) as [E F]; subst; clear B
  | A : count ?a ?i ?r, B : count ?b ?i ?s |- _ =>
      let E := fresh in let F := fresh in destruct (count_det _ _ _ _ _ A B) as [E F]; subst; clear B
  | A : scalar ?c ?v ?i ?r, B : scalar ?c ?w ?i ?s |- _ =>
      let E := fresh in let F := fresh in destruct (scalar_det _ _ _ _ A _ _ B) as [E F]; subst; clear B
  | A : array ?l ?i ?r, B : array ?m ?i ?s |- _ =>
      let E := fresh in let F := fresh in destruct (proj1 array_elems_det _ _ _ A _ _ B) as [E F]; subst; clear B
  end.

(** Two readings of one file agree, however strict each of them is about the layout. *)
Lemma class_entries_det f t :
  (forall off pa es fin, class f t off pa es fin ->
     forall t' pa' es' fin', class f t' off pa' es' fin' -> pa = pa' /\ es = es' /\ fin = fin') /\
  (forall es inp cur r cur', entries f t es inp cur r cur' ->
     forall t' es' c r' c', entries f t' es' inp c r' c' -> length es = length es' ->
     es = es' /\ r = r').
Proof.
  apply class_entries_ind.
  - intros off pa s es fin i1 i2 i3 rest cur Hp Ho Hs Hc _ IH Hw _ t' pa' es' fin' H'.
    inversion H' as [off2 pa2 s2 es2 fin2 j1 j2 j3 rest2 cur2 Hp2 Ho2 Hs2 Hc2 He2 Hw2 _]; subst.
    destruct (cstr_det _ _ _ _ _ Hs Hs2) as [<- <-].
    destruct (count_det _ _ _ _ _ Hc Hc2) as [L <-].
    destruct (IH _ _ _ _ _ He2 L) as [<- <-]. destruct (word_det _ _ _ _ _ Hw Hw2) as [<- <-].
    split; [eapply parent_det; eauto|auto].
  - intros inp cur t' es' c r' c' H' L. destruct es'; [|discriminate]. inversion H'; subst; auto.
  - intros name pa es off fin es1 inp i1 i2 r cur cur' Hn Hw _ IHc _ _ IHe t' es' c r' c' H' L.
    destruct es' as [|]; [discriminate|]. inversion H' as [|n2 p2 x2 o2 f2 y2 k1 k2 k3 r2 c2 c3 Hn2 Hw2 Hc2 _ He2| | | | | |]; subst.
    det. destruct (IHc _ _ _ _ Hc2) as (-> & -> & ->).
    destruct (IHe _ _ _ _ _ He2) as [-> ->]; [cbn in L; lia|auto].
  - intros code name v es1 inp i1 i2 r cur cur' Hn Hs _ IHe t' es' c r' c' H' L.
    destruct es' as [|]; [discriminate|]. inversion H' as [| |? ? ? ? ? ? ? ? ? ? Hn2 Hs2 He2|? ? ? ? ? ? ? ? ? Hn2 Hs2 He2| | | |]; subst.
    + det. destruct (IHe _ _ _ _ _ He2) as [-> ->]; [cbn in L; lia|auto].
    + apply scalar_code in Hs. lia.
  - intros name s es1 inp i1 i2 r cur cur' Hn Hs _ IHe t' es' c r' c' H' L.
    destruct es' as [|]; [discriminate|]. inversion H' as [| |? ? ? ? ? ? ? ? ? ? Hn2 Hs2 He2|? ? ? ? ? ? ? ? ? Hn2 Hs2 He2| | | |]; subst.
    + apply scalar_code in Hs2. lia.
    + det. destruct (IHe _ _ _ _ _ He2) as [-> ->]; [cbn in L; lia|auto].
  - intros name l es1 inp i1 i2 r cur cur' Hn Ha _ IHe t' es' c r' c' H' L.
    destruct es' as [|]; [discriminate|]. inversion H' as [| | | |? ? ? ? ? ? ? ? ? Hn2 Ha2 He2| | |]; subst.
    det. destruct (IHe _ _ _ _ _ He2) as [-> ->]; [cbn in L; lia|auto].
  - intros name l es1 inp i0 i1 i2 r cur cur' Hw Hn Ha _ IHe t' es' c r' c' H' L.
    destruct es' as [|]; [discriminate|]. inversion H' as [| | | | |? ? ? ? ? ? ? ? ? ? Hw2 Hn2 Ha2 He2| |]; subst.
    det. destruct (IHe _ _ _ _ _ He2) as [-> ->]; [cbn in L; lia|auto].
  - intros name es1 inp i1 r cur cur' Hn _ IHe t' es' c r' c' H' L.
    destruct es' as [|]; [discriminate|]. inversion H' as [| | | | | |? ? ? ? ? ? ? Hn2 He2|]; subst.
    det. destruct (IHe _ _ _ _ _ He2) as [-> ->]; [cbn in L; lia|auto].
  - intros name es1 inp i1 r cur cur' Hn _ IHe t' es' c r' c' H' L.
    destruct es' as [|]; [discriminate|]. inversion H' as [| | | | | | |? ? ? ? ? ? ? Hn2 He2]; subst.
    det. destruct (IHe _ _ _ _ _ He2) as [-> ->]; [cbn in L; lia|auto].
Qed.

Lemma rap_file_det f t t' es es' : rap_file t f es -> rap_file t' f es' -> es = es'.
Proof.
  intros [? ? ? ? ? ? _ _ _ _ _ H _] [? ? ? ? ? ? _ _ _ _ _ H' _].
  destruct (proj1 (class_entries_det f t) _ _ _ _ H _ _ _ _ H') as (_ & E & _). exact E.
Qed.

(** A tight file is in particular a file. *)
Lemma class_loosen f t :
  (forall off pa es fin, class f t off pa es fin -> class f false off pa es fin) /\
  (forall es inp cur r cur', entries f t es inp cur r cur' -> entries f false es inp cur r cur').
Proof.
  apply class_entries_ind; intros; try (econstructor; eauto; discriminate).
Qed.
Lemma rap_file_loosen f t es : rap_file t f es -> rap_file false f es.
Proof.
  intros [? ? ? ? ? ? E1 E2 E3 E4 E5 H _].
  exact (rf false f es _ _ _ _ _ _ E1 E2 E3 E4 E5 (proj1 (class_loosen f t) _ _ _ _ H) ltac:(discriminate)).
Qed.

(** ** The encoder writes what the grammar describes *)
Lemma count_cint n rest : N.of_nat n < 2 ^ 32 -> count n (cint n ++ rest) rest.
Proof.
  intro H. exists (cint n). split; [|reflexivity]. unfold cint, as_u32.
  rewrite N.mod_small by exact H.
  destruct (write_cint_total (N.of_nat n) H) as [r Hr]. rewrite Hr. eapply write_is_leb. exact Hr.
Qed.

Lemma word_u32 w rest : w < 2 ^ 32 -> word w (u32_bytes w ++ rest) rest.
Proof. intro H. split; [exact H|reflexivity]. Qed.

Lemma cstr_app s rest : no_nul s -> cstr s (s ++ [0] ++ rest) rest.
Proof. intro H. split; auto. Qed.

Lemma scalar_number n rest : num_ok n -> scalar (number_code n) (tree_number n) (enc_number n ++ rest) rest.
Proof.
  destruct n as [v|v|b]; cbn [num_ok number_code tree_number]; intro H; unfold enc_number; cbn [number_rapify fst].
  - apply (sc_int v (Z.to_N (v mod 2 ^ 32))).
    + split; [exact H|]. rewrite Z2N.id; [reflexivity|]. apply Z.mod_pos_bound. lia.
    + split; [|reflexivity]. pose proof (Z.mod_pos_bound v (2 ^ 32) ltac:(lia)). lia.
  - apply (sc_int64 v (Z.to_N (v mod 2 ^ 64))).
    + split; [exact H|]. rewrite Z2N.id; [reflexivity|]. apply Z.mod_pos_bound. lia.
    + split; [|reflexivity]. pose proof (Z.mod_pos_bound v (2 ^ 64) ltac:(lia)). lia.
  - apply sc_float. apply word_u32. exact H.
Qed.

Lemma enc_items_len l : N.of_nat (length l) <= blen (enc_items l).
Proof.
  induction l as [|e r IH]; [cbn; lia|]. change (enc_items (e :: r)) with ((icode e :: enc_item e) ++ enc_items r).
  rewrite blen_app, blen_cons. cbn [length]. lia.
Qed.

Definition item_reads (i : item) : Prop :=
  forall v rest, tree_item i = Some v -> item_ok i -> blen (enc_item i) < 2 ^ 32 ->
  scalar (icode i) v (enc_item i ++ rest) rest \/
  (icode i = 3 /\ exists a, v = RArray a /\ array a (enc_item i ++ rest) rest).

Lemma items_read l : Forall item_reads l -> forall vs rest, tree_items l = Some vs ->
  fold_right (fun e P => item_ok e /\ P) True l -> blen (enc_items l) < 2 ^ 32 ->
  elems vs (enc_items l ++ rest) rest /\ length vs = length l.
Proof.
  induction 1 as [|e r He Hr IH]; intros vs rest Hv Hok HL.
  - cbn in *. apply Some_inj in Hv; subst. split; [constructor|reflexivity].
  - apply tree_items_cons in Hv as (v & vr & Ev & Evr & ->). cbn [fold_right] in Hok. destruct Hok as [Hok1 Hok2].
    change (enc_items (e :: r)) with ((icode e :: enc_item e) ++ enc_items r) in *.
    rewrite blen_app, blen_cons in HL.
    destruct (IH vr rest Evr Hok2) as [IH1 IH2]; [lia|].
    rewrite <- app_assoc. cbn [app length]. rewrite IH2. split; [|reflexivity].
    destruct (He v (enc_items r ++ rest) Ev Hok1) as [Hs|(Hc & a & -> & Ha)]; [lia| |].
    + eapply el_scalar; eauto.
    + rewrite Hc. eapply el_array; eauto.
Qed.

Lemma item_reads_all i : item_reads i.
Proof.
  induction i as [s|n|l IH|] using item_ind'; intros v rest Hv Hok HL.
  - left. cbn in Hv. apply Some_inj in Hv; subst. cbn [icode enc_item]. apply sc_str.
    rewrite <- app_assoc. apply cstr_app. exact Hok.
  - left. cbn in Hv. apply Some_inj in Hv; subst. cbn [icode enc_item]. apply scalar_number. exact Hok.
  - right. split; [reflexivity|]. cbn [tree_item] in Hv. change (fold_right _ _ l) with (tree_items l) in Hv.
    destruct (tree_items l) as [vs|] eqn:E; [|discriminate]. cbn in Hv. apply Some_inj in Hv; subst.
    exists vs. split; [reflexivity|].
    change (enc_item (IArr l)) with (cint (length l) ++ enc_items l) in *. rewrite blen_app in HL.
    pose proof (enc_items_len l).
    destruct (items_read l IH vs rest E) as [H1 H2]; [exact Hok|lia|].
    rewrite <- app_assoc. econstructor; [|exact H1]. rewrite H2. apply count_cint. lia.
  - discriminate.
Qed.

Lemma array_reads l vs rest : tree_items l = Some vs -> fold_right (fun e P => item_ok e /\ P) True l ->
  blen (enc_array l) < 2 ^ 32 -> array vs (enc_array l ++ rest) rest.
Proof.
  intros Hv Hok HL. unfold enc_array in *. rewrite blen_app in HL. pose proof (enc_items_len l).
  destruct (items_read l) with (vs := vs) (rest := rest) as [H1 H2]; auto; [|lia|].
  { apply Forall_forall. intros. apply item_reads_all. }
  rewrite <- app_assoc. econstructor; [|exact H1]. rewrite H2. apply count_cint. lia.
Qed.

(** [f] holds [b] at offset [o]. *)
Definition holds (f : bytes) (o : N) (b : bytes) : Prop := exists pre post, f = pre ++ b ++ post /\ blen pre = o.

Lemma holds_app f o a b : holds f o (a ++ b) -> holds f o a /\ holds f (o + blen a) b.
Proof.
  intros (pre & post & -> & <-). split.
  - exists pre, (b ++ post). now rewrite <- !app_assoc.
  - exists (pre ++ a), post. rewrite blen_app. now rewrite <- !app_assoc.
Qed.
Lemma holds_len f o b : holds f o b -> o + blen b <= blen f.
Proof. intros (pre & post & -> & <-). rewrite !blen_app. lia. Qed.

Definition class_reads (c : RapModel.class) : Prop :=
  match c with
  | Local _ parent ps _ =>
      forall es off f, tree_props ps = Some es -> class_ok c -> blen f < 2 ^ 32 ->
      holds f off (enc_body parent ps off) -> class f true off parent es (off + blen (enc_body parent ps off))
  | _ => True
  end.

Lemma enc_props_facts ps es cur : tree_props ps = Some es ->
  let '(h, b, e) := enc_props ps cur in e = cur + blen b /\ blen h = heads_len ps.
Proof.
  intro H. pose proof (cl_props_good ps) as K. specialize (K ltac:(apply Forall_forall; intros [| | |] _; cbn; auto using class_good_all) es cur H).
  destruct (enc_props ps cur) as [[h b] e]. tauto.
Qed.

Lemma head_pos p e : tree_entry tree_class p = Some e -> 1 <= blen (head p 0).
Proof. intro H. destruct (prop_facts p e H) as (_ & _ & _ & K). lia. Qed.

Lemma heads_len_ge ps es : tree_props ps = Some es -> N.of_nat (length ps) <= heads_len ps.
Proof.
  revert es; induction ps as [|p r IH]; intros es H; [cbn; lia|].
  apply tree_props_cons in H as (e & er & He & Hr & ->). specialize (IH _ Hr). pose proof (head_pos _ _ He).
  cbn [heads_len fold_right length]. fold (heads_len r). lia.
Qed.

Lemma tree_props_length ps es : tree_props ps = Some es -> length es = length ps.
Proof.
  revert es; induction ps as [|p r IH]; intros es H; [cbn in H; apply Some_inj in H; now subst|].
  apply tree_props_cons in H as (e & er & He & Hr & ->). cbn. now rewrite (IH _ Hr).
Qed.

Lemma as_u32_small w : w < 2 ^ 32 -> as_u32 w = w.
Proof. intro H. unfold as_u32. apply N.mod_small. exact H. Qed.

Lemma entries_read ps : Forall (Pprop class_reads) ps ->
  forall es cur f rest, tree_props ps = Some es ->
  fold_right (fun p P => prop_ok class_ok p /\ P) True ps -> blen f < 2 ^ 32 ->
  let '(h, b, e) := enc_props ps cur in
  blen h <= blen f -> holds f cur b -> entries f true es (h ++ rest) cur rest e.
Proof.
  induction 1 as [|p r Hp Hr IH]; intros es cur f rest Hes Hok Hf.
  - cbn in *. apply Some_inj in Hes; subst. constructor.
  - apply tree_props_cons in Hes as (e & er & He & Her & ->). cbn [fold_right] in Hok. destruct Hok as [Hok1 Hok2].
    cbn [enc_props]. specialize (IH er (cur + blen (nested p cur)) f rest Her Hok2 Hf).
    destruct (enc_props r _) as [[h b] e']. intros Hh Hb. apply holds_app in Hb as [Hb1 Hb2].
    rewrite blen_app in Hh. specialize (IH ltac:(lia) Hb2). rewrite <- app_assoc.
    unfold head in *. rewrite !blen_app in Hh.
    pose proof (holds_len _ _ _ Hb1) as Hb3.
    destruct p as [n v x|c|n|n].
    + destruct Hok1 as [Hn Hv]. cbn [nested] in IH. rewrite blen_nil, N.add_0_r in IH.
      destruct v as [s|k|s|ex l|ex l|]; cbn [tree_entry pname pcode prop_code payload enc_value value_ok] in *;
        try discriminate.
      * apply Some_inj in He; subst. rewrite <- !app_assoc. cbn [app].
        eapply en_value; [apply cstr_app; exact Hn| apply sc_str; apply cstr_app; exact Hv|exact IH].
      * apply Some_inj in He; subst. rewrite <- !app_assoc. cbn [app].
        eapply en_value; [apply cstr_app; exact Hn| apply scalar_number; exact Hv|exact IH].
      * apply Some_inj in He; subst. rewrite <- !app_assoc. cbn [app].
        eapply en_expr; [apply cstr_app; exact Hn| apply cstr_app; exact Hv|exact IH].
      * destruct (tree_items l) as [vs|] eqn:El; [|discriminate]. cbn in He. apply Some_inj in He; subst.
        assert (Ha : array vs (enc_array l ++ h ++ rest) (h ++ rest)) by (apply array_reads; auto; lia).
        destruct ex; rewrite <- !app_assoc; cbn [app].
        -- eapply (en_array_add f true n vs er (1 :: 0 :: 0 :: 0 :: n ++ 0 :: enc_array l ++ h ++ rest)
              (n ++ 0 :: enc_array l ++ h ++ rest)); [split; [reflexivity|reflexivity]|apply cstr_app; exact Hn|exact Ha|exact IH].
        -- eapply en_array; [apply cstr_app; exact Hn|exact Ha|exact IH].
    + destruct c as [ps0|n pa ps0 m|n]; [discriminate| |].
      * apply (tree_class_local n pa ps0 m) in He as (es0 & He & ->).
        cbn [nested] in *. rewrite enc_class_local in *.
        cbn [prop_ok] in Hok1. pose proof Hok1 as Hok1'. cbn [class_ok] in Hok1. destruct Hok1 as (Hn & _ & _).
        specialize (Hp es0 cur f He Hok1' Hf Hb1).
        cbn [pname pcode prop_code payload]. rewrite <- !app_assoc. cbn [app].
        rewrite as_u32_small by lia.
        eapply en_class; [apply cstr_app; exact Hn|apply word_u32; lia|exact Hp|reflexivity|exact IH].
      * cbn [tree_entry tree_class] in He. apply Some_inj in He; subst.
        cbn [nested] in IH. rewrite blen_nil, N.add_0_r in IH.
        cbn [pname pcode prop_code payload prop_ok class_ok] in *. rewrite <- !app_assoc. cbn [app].
        eapply en_extern; [apply cstr_app; exact Hok1|exact IH].
    + cbn [tree_entry] in He. apply Some_inj in He; subst.
      cbn [nested] in IH. rewrite blen_nil, N.add_0_r in IH.
      cbn [pname pcode prop_code payload prop_ok] in *. rewrite <- !app_assoc. cbn [app].
      eapply en_delete; [apply cstr_app; exact Hok1|exact IH].
    + discriminate.
Qed.

Lemma skipn_holds f o b : holds f o b -> exists post, skipn (N.to_nat o) f = b ++ post.
Proof.
  intros (pre & post & -> & <-). exists post.
  replace (N.to_nat (blen pre)) with (length pre) by (unfold blen; lia).
  rewrite skipn_app, Nat.sub_diag, skipn_all. reflexivity.
Qed.
Lemma skipn_blen (f : bytes) o : o <= blen f -> blen (skipn (N.to_nat o) f) = blen f - o.
Proof. intro. unfold blen in *. rewrite skipn_length. lia. Qed.

Lemma body_reads parent ps es off f : Forall (Pprop class_reads) ps -> tree_props ps = Some es ->
  fold_right (fun p P => prop_ok class_ok p /\ P) True ps ->
  (forall p, parent = Some p -> no_nul p /\ p <> []) -> blen f < 2 ^ 32 ->
  holds f off (enc_body parent ps off) -> class f true off parent es (off + blen (enc_body parent ps off)).
Proof.
  intros HF Hes Hok Hpa Hf Hh.
  set (start := off + blen (head0 parent ps) + heads_len ps + 4) in *.
  unfold enc_body in *. fold start in Hh |- *.
  pose proof (entries_read ps HF es start f) as K. pose proof (enc_props_facts ps es start Hes) as F.
  pose proof (heads_len_ge ps es Hes) as G.
  destruct (enc_props ps start) as [[h b] e]. destruct F as [-> Fh].
  pose proof (holds_len _ _ _ Hh) as HL. rewrite !blen_app, u32_blen in HL.
  destruct (skipn_holds _ _ _ Hh) as [post Hsk].
  apply holds_app in Hh as [_ Hh]. apply holds_app in Hh as [_ Hh]. apply holds_app in Hh as [_ Hb].
  rewrite u32_blen, Fh in Hb. fold start in Hb.
  replace (off + blen (head0 parent ps) + heads_len ps + 4) with start in Hb by reflexivity.
  assert (Hfin : off + blen (head0 parent ps ++ h ++ u32_bytes (as_u32 (start + blen b)) ++ b) = start + blen b).
  { rewrite !blen_app, u32_blen, Fh. unfold start. lia. }
  rewrite Hfin. assert (Hsz : start + blen b < 2 ^ 32) by (unfold start; lia).
  rewrite as_u32_small in Hsk by exact Hsz.
  specialize (K (u32_bytes (start + blen b) ++ b ++ post) Hes Hok Hf ltac:(lia) Hb).
  pose proof (f_equal blen Hsk) as HskL. rewrite skipn_blen in HskL by lia.
  assert (Hst : blen f - blen (b ++ post) = start).
  { rewrite !blen_app, u32_blen in HskL. rewrite blen_app. unfold start. lia. }
  eapply cl with (s := match parent with Some p => p | None => [] end) (rest := b ++ post) (cur := start + blen b);
    [| | | |rewrite Hst; exact K| |].
  - destruct parent as [p|]; cbn; [|reflexivity]. split; [reflexivity|]. apply Hpa. reflexivity.
  - lia.
  - rewrite Hsk. unfold head0. rewrite <- !app_assoc. apply cstr_app.
    destruct parent as [p|]; [apply Hpa; reflexivity|intros []].
  - rewrite (tree_props_length ps es Hes). apply count_cint.
    assert (N.of_nat (length ps) <= heads_len ps) by exact G. lia.
  - apply word_u32. exact Hsz.
  - intros _. reflexivity.
Qed.

Lemma class_reads_all c : class_reads c.
Proof.
  induction c as [ps IH|n pa ps m IH|n] using class_ind'; cbn [class_reads]; auto.
  intros es off f Hes Hok Hf Hh. cbn [class_ok] in Hok. destruct Hok as (_ & Hpa & Hok).
  eapply body_reads; eauto.
Qed.

Lemma config_reads c es : tree c = Some es -> config_ok c -> blen (enc_config c) < 2 ^ 32 ->
  rap_file true (enc_config c) es.
Proof.
  intros Hes Hok Hf.
  assert (HF : Forall (Pprop class_reads) c) by (apply Forall_forall; intros [| | |] _; cbn; auto using class_reads_all).
  set (b := enc_body None c 16).
  assert (HL : blen (enc_config c) = 16 + blen b + 4).
  { unfold enc_config. fold b. rewrite !blen_app, u32_blen. change (blen [0;114;97;80]) with 4.
    change (blen [0;0;0;0;8;0;0;0]) with 8. change (blen [0;0;0;0]) with 4. lia. }
  assert (HE : as_u32 (16 + as_u32 (blen b)) = 16 + blen b).
  { rewrite (as_u32_small (blen b)) by lia. apply as_u32_small. lia. }
  assert (Hh : holds (enc_config c) 16 b).
  { exists ([0; 114; 97; 80] ++ [0; 0; 0; 0; 8; 0; 0; 0] ++ u32_bytes (as_u32 (16 + as_u32 (blen b)))), [0;0;0;0].
    split; [unfold enc_config; fold b; rewrite <- !app_assoc; reflexivity|].
    rewrite !blen_app, u32_blen. reflexivity. }
  pose proof (body_reads None c es 16 (enc_config c) HF Hes Hok ltac:(discriminate) Hf Hh) as HC. fold b in HC.
  eapply rf with (enums := 16 + blen b); [reflexivity| | | | |exact HC|reflexivity].
  - split; [reflexivity|]. cbn [app]. reflexivity.
  - split; [reflexivity|]. reflexivity.
  - fold b. rewrite HE. apply word_u32. lia.
  - assert (Hh2 : holds (enc_config c) (16 + blen b) [0;0;0;0]).
    { exists ([0; 114; 97; 80] ++ [0; 0; 0; 0; 8; 0; 0; 0] ++ u32_bytes (as_u32 (16 + as_u32 (blen b))) ++ b), [].
      split; [unfold enc_config; fold b; rewrite <- !app_assoc; reflexivity|].
      rewrite !blen_app, u32_blen. change (blen [0;114;97;80]) with 4. change (blen [0;0;0;0;8;0;0;0]) with 8. lia. }
    destruct (skipn_holds _ _ _ Hh2) as [post Hsk]. pose proof (f_equal blen Hsk) as HskL.
    rewrite skipn_blen in HskL by lia. rewrite blen_app in HskL. change (blen [0;0;0;0]) with 4 in HskL.
    assert (blen post = 0) as Hpost by lia. destruct post; [|rewrite blen_cons in Hpost; lia].
    rewrite Hsk. split; [reflexivity|reflexivity].
Qed.

(** ** Error nodes make the length computation panic *)
Lemma item_len_total i : item_len i <> IoErr /\ (forall n, item_len i = Ok n -> tree_item i <> None).
Proof.
  induction i as [s|n|l IH|] using item_ind'; try (cbn; split; [discriminate|intros; discriminate]).
  assert (K : items_len l <> IoErr /\ (forall n, items_len l = Ok n -> tree_items l <> None)).
  { induction IH as [|e r [He1 He2] Hr [IH1 IH2]]; [split; [discriminate|intros; discriminate]|].
    cbn [items_len]. destruct (item_len e) as [a| |]; cbn [bind]; [|split; [discriminate|intros; discriminate]|contradiction].
    destruct (items_len r) as [b| |]; cbn [bind]; [|split; [discriminate|intros; discriminate]|contradiction].
    split; [discriminate|]. intros _ _. unfold tree_items. cbn [fold_right].
    specialize (He2 _ eq_refl). specialize (IH2 _ eq_refl). fold (tree_items r).
    destruct (tree_item e); [|contradiction]. destruct (tree_items r); [discriminate|contradiction]. }
  rewrite item_len_arr, len_len_ok. cbn [bind]. destruct K as [K1 K2].
  destruct (items_len l) as [b| |]; cbn [bind]; [|split; [discriminate|intros; discriminate]|contradiction].
  split; [discriminate|]. intros _ _. cbn [tree_item]. change (fold_right _ _ l) with (tree_items l).
  specialize (K2 _ eq_refl). destruct (tree_items l); [discriminate|contradiction].
Qed.
Lemma items_len_total l : items_len l <> IoErr /\ (forall n, items_len l = Ok n -> tree_items l <> None).
Proof.
  induction l as [|e r [IH1 IH2]]; [split; [discriminate|intros; discriminate]|].
  destruct (item_len_total e) as [He1 He2].
  cbn [items_len]. destruct (item_len e) as [a| |]; cbn [bind]; [|split; [discriminate|intros; discriminate]|contradiction].
  destruct (items_len r) as [b| |]; cbn [bind]; [|split; [discriminate|intros; discriminate]|contradiction].
  split; [discriminate|]. intros _ _. unfold tree_items. cbn [fold_right].
  specialize (He2 _ eq_refl). specialize (IH2 _ eq_refl). fold (tree_items r).
  destruct (tree_item e); [|contradiction]. destruct (tree_items r); [discriminate|contradiction].
Qed.

Lemma prop_len_total p : prop_len p <> IoErr /\
  (forall n, prop_len p = Ok n -> match p with PClass _ => True | _ => tree_entry tree_class p <> None end).
Proof.
  destruct p as [n v x|[| |]|n|n]; try (cbn; split; [discriminate|intros; auto; discriminate]).
  destruct v as [s|k|s|ex l|ex l|]; try (cbn; split; [discriminate|intros; auto; discriminate]).
  unfold prop_len. cbn [prop_code value_len]. unfold array_len. rewrite len_len_ok. cbn [bind].
  destruct (items_len_total l) as [H1 H2]. destruct (items_len l); cbn [bind]; [|split; [discriminate|intros; discriminate]|contradiction].
  split; [discriminate|]. intros _ _. cbn [tree_entry]. specialize (H2 _ eq_refl). destruct (tree_items l); [discriminate|contradiction].
Qed.

Definition len_total (c : RapModel.class) : Prop :=
  class_len c <> IoErr /\
  (forall n, class_len c = Ok n -> match c with Root ps | Local _ _ ps _ => tree_props ps <> None | External _ => True end).

Lemma cl_props_total ps : Forall (Pprop len_total) ps ->
  cl_props ps <> IoErr /\ (forall n, cl_props ps = Ok n -> tree_props ps <> None).
Proof.
  induction 1 as [|p r Hp Hr [IH1 IH2]]; [split; [discriminate|intros; discriminate]|].
  cbn [cl_props].
  assert (Hn : prop_name p <> IoErr) by (destruct p as [n v x|[| |]|n|n]; cbn; discriminate).
  destruct (prop_name p) as [nm| |] eqn:En; cbn [bind]; [|split; [discriminate|intros; discriminate]|contradiction].
  destruct (prop_len_total p) as [Hl1 Hl2].
  destruct (prop_len p) as [pl| |] eqn:El; cbn [bind]; [|split; [discriminate|intros; discriminate]|contradiction].
  assert (Hc : match p with PClass c' => class_len c' | _ => Ok 0 end <> IoErr).
  { destruct p; try discriminate. exact (proj1 Hp). }
  destruct (match p with PClass c' => class_len c' | _ => Ok 0 end) as [cl| |] eqn:Ec; cbn [bind];
    [|split; [discriminate|intros; discriminate]|contradiction].
  destruct (cl_props r) as [m| |]; cbn [bind]; [|split; [discriminate|intros; discriminate]|contradiction].
  split; [discriminate|]. intros _ _. specialize (IH2 _ eq_refl). specialize (Hl2 _ eq_refl).
  unfold tree_props. cbn [fold_right]. fold (tree_props r). destruct (tree_props r) as [er|]; [|contradiction].
  assert (tree_entry tree_class p <> None).
  { destruct p as [n v x|c|n|n]; auto. cbn [tree_entry]. destruct Hp as [_ Hp]. specialize (Hp _ Ec).
    destruct c as [ps0|n pa ps0 mb|n]; [discriminate| |discriminate].
    cbn [tree_class]. change (fold_right _ _ ps0) with (tree_props ps0). destruct (tree_props ps0); [discriminate|contradiction]. }
  destruct (tree_entry tree_class p); [discriminate|contradiction].
Qed.

Lemma len_total_all c : len_total c.
Proof.
  induction c as [ps IH|n pa ps m IH|n] using class_ind'; unfold len_total.
  - rewrite class_len_root. unfold cl_body. rewrite len_len_ok. cbn [bind].
    destruct (cl_props_total ps IH) as [H1 H2].
    destruct (cl_props ps); cbn [bind]; [|split; [discriminate|intros; discriminate]|contradiction].
    split; [discriminate|]. eauto.
  - rewrite class_len_local. unfold cl_body. rewrite len_len_ok. cbn [bind].
    destruct (cl_props_total ps IH) as [H1 H2].
    destruct (cl_props ps); cbn [bind]; [|split; [discriminate|intros; discriminate]|contradiction].
    split; [discriminate|]. eauto.
  - split; [discriminate|auto].
Qed.

Lemma error_panics c : tree c = None -> config_rapify c = Panic.
Proof.
  intro H. unfold config_rapify. destruct (len_total_all (Root c)) as [H1 H2].
  destruct (class_len (Root c)) as [n| |]; [|reflexivity|contradiction]. exfalso. exact (H2 _ eq_refl H).
Qed.
