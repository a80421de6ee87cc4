(** C98: URLs of files in the language server. *)
From Coq Require Import String Permutation.
From Verif Require Import Base.Tactics Base.Bytes Base.Sort Base.Ascii Base.Text Workspace.PathModel.
From Verif Require Import Hls.UrlModel Hls.UrlSpec.
Local Open Scope N_scope.
Local Open Scope list_scope.

(** ** Escapes *)
Lemma unreserved_spec b : unreserved b = true <-> plain_char b.
Proof. unfold unreserved, plain_char. change (bs "-._~") with [45; 46; 95; 126]. cbn [In]. rewrite !orb_true_iff, !andb_true_iff, !N.leb_le, !N.eqb_eq. lia. Qed.
Lemma hex_inj a b : hex a = hex b -> a = b.
Proof. unfold hex. destruct (N.ltb_spec a 10), (N.ltb_spec b 10); lia. Qed.
Lemma hex_big a : 48 <= hex a.
Proof. unfold hex. destruct (N.ltb_spec a 10); lia. Qed.
Definition mark (b : N) : text := if b =? 47 then [47] else if unreserved b then [b] else escape b.
Lemma unslash_skip a t : a <> 37 -> unslash (a :: t) = a :: unslash t.
Proof. intros NE. apply N.eqb_neq in NE. cbn [unslash]. destruct t as [|b [|c r]]; try reflexivity. rewrite NE. reflexivity. Qed.
Lemma unslash_three a b c r : unslash (a :: b :: c :: r) = if ((a =? 37) && (b =? 50) && (c =? 70))%bool then 47 :: unslash r else a :: unslash (b :: c :: r).
Proof. reflexivity. Qed.
Lemma unslash_encode s : unslash (encode s) = flat_map mark s.
Proof.
  induction s as [|b s IH]; [reflexivity|]. cbn [encode flat_map] in *. fold (encode s). unfold mark at 1. destruct (unreserved b) eqn:U.
  - assert (b <> 37 /\ b <> 47) as (N1 & N2) by (apply unreserved_spec in U; unfold plain_char in U; change (bs "-._~") with [45; 46; 95; 126] in U; cbn [In] in U; lia).
    apply N.eqb_neq in N2. rewrite N2. cbn [app]. rewrite unslash_skip by exact N1. f_equal. exact IH.
  - unfold escape. cbn [app]. destruct (N.eqb_spec b 47) as [->|N2].
    + change (hex (47 / 16)) with 50. change (hex (47 mod 16)) with 70. cbn [unslash app]. change ((37 =? 37) && (50 =? 50) && (70 =? 70))%bool with true. cbn iota. f_equal. exact IH.
    + pose proof (hex_big (b / 16)). pose proof (hex_big (b mod 16)).
      rewrite unslash_three. replace ((37 =? 37) && (hex (b / 16) =? 50) && (hex (b mod 16) =? 70))%bool with false.
      2:{ symmetry. apply andb_false_iff. destruct (N.eqb_spec (hex (b mod 16)) 70) as [E|]; [left|now right]. change (37 =? 37) with true. cbn [andb]. apply N.eqb_neq. intros E'.
          apply N2. change 70 with (hex 15) in E. change 50 with (hex 2) in E'. apply hex_inj in E, E'. pose proof (N.div_mod b 16). lia. }
      rewrite unslash_skip by lia. rewrite unslash_skip by lia. rewrite IH. reflexivity.
Qed.
Lemma mark_inj x y s t : mark x ++ s = mark y ++ t -> x = y /\ s = t.
Proof.
  unfold mark. assert (Un : forall b, unreserved b = true -> b <> 37) by (intros b U; apply unreserved_spec in U; unfold plain_char in U; change (bs "-._~") with [45; 46; 95; 126] in U; cbn [In] in U; lia).
  pose proof (Un x) as Ux. pose proof (Un y) as Uy.
  destruct (N.eqb_spec x 47), (N.eqb_spec y 47), (unreserved x), (unreserved y); unfold escape; cbn [app]; intros E; injection E; intros; subst; try (split; congruence); try (exfalso; now apply Ux); try (exfalso; now apply Uy); try lia.
  rename H0 into A, H1 into B. apply hex_inj in A, B. pose proof (N.div_mod x 16). pose proof (N.div_mod y 16). split; [lia|reflexivity].
Qed.
Lemma marks_inj s : forall t, flat_map mark s = flat_map mark t -> s = t.
Proof.
  assert (NE : forall b r, mark b ++ r <> []) by (intros b r; unfold mark, escape; destruct (b =? 47), (unreserved b); discriminate).
  induction s as [|x s IH]; intros [|y t] E; cbn [flat_map] in E; [reflexivity|symmetry in E; now apply NE in E|now apply NE in E|].
  apply mark_inj in E as (-> & E). f_equal. now apply IH.
Qed.
Lemma decode_encodes u s : encodes u s -> decode u = s.
Proof.
  assert (D : forall c n, hex_digit c n -> unhex c = Some n).
  { intros c n [(B & ->)|(B & [->| ->])]; unfold unhex; repeat match goal with |- context [?a <=? ?b] => destruct (N.leb_spec a b) end; cbn [andb]; f_equal; lia. }
  induction 1 as [|b u s NE E IH|h l x y u s Hh Hl E IH]; [reflexivity| |].
  - apply N.eqb_neq in NE. cbn [decode]. rewrite NE. now f_equal.
  - cbn [decode]. change (37 =? 37) with true. cbn iota. rewrite (D _ _ Hh), (D _ _ Hl). now f_equal.
Qed.
(** What the server writes for a path is a way to write it. *)
Lemma encodes_marks s : Forall (fun b => b < 256) s -> encodes (flat_map mark s) s.
Proof.
  assert (X : forall n, n < 16 -> hex_digit (hex n) n) by (intros n B; unfold hex, hex_digit; destruct (N.ltb_spec n 10); lia).
  induction 1 as [|b s B F IH]; [constructor|]. cbn [flat_map]. unfold mark at 1. destruct (N.eqb_spec b 47) as [->|]; [constructor; [discriminate|exact IH]|]. destruct (unreserved b) eqn:U.
  - constructor; [|exact IH]. intros ->. discriminate U.
  - unfold escape. cbn [app]. rewrite (N.div_mod b 16) at 3 by discriminate. constructor; [apply X; apply N.div_lt_upper_bound; lia|apply X; apply N.mod_lt; discriminate|exact IH].
Qed.

(** ** Paths *)
Lemma as_str_inj p : forall q, Forall (fun c => ~ In 47 c) p -> Forall (fun c => ~ In 47 c) q -> as_str p = as_str q -> p = q.
Proof.
  assert (Cut : forall c d r r', ~ In 47 c -> ~ In 47 d -> (r = [] \/ exists x, r = 47 :: x) -> (r' = [] \/ exists x, r' = 47 :: x) -> c ++ r = d ++ r' -> c = d /\ r = r').
  { induction c as [|x c IH]; intros [|y d] r r' Nc Nd R R' E; cbn [app] in E; [auto| | |].
    - subst r. destruct R as [R|(z & R)]; [discriminate R|]. injection R as ? ?. exfalso. apply Nd. left. congruence.
    - subst r'. destruct R' as [R'|(z & R')]; [discriminate R'|]. injection R' as ? ?. exfalso. apply Nc. left. congruence.
    - injection E as Exy E. subst y. destruct (IH d r r') as (Ec & Er); auto; [intros I; apply Nc; now right|intros I; apply Nd; now right|]. split; congruence. }
  assert (Hd : forall l : vpath, as_str l = [] \/ exists x, as_str l = 47 :: x) by (intros [|c l]; [now left|right; cbn [as_str flat_map app]; eauto]).
  induction p as [|c p IH]; intros [|d q] Fp Fq E; [reflexivity|discriminate E|discriminate E|]. cbn [as_str flat_map app] in E. injection E as E.
  inversion Fp as [|? ? Nc Fp']; inversion Fq as [|? ? Nd Fq']; subst. destruct (Cut c d (as_str p) (as_str q) Nc Nd (Hd p) (Hd q) E) as (-> & E'). f_equal. now apply IH.
Qed.
Lemma proper_names p : proper p -> Forall (fun c => ~ In 47 c) p.
Proof. intros (_ & F). eapply Forall_impl; [|exact F]. intros c (_ & A & _). exact A. Qed.
Lemma slashes_proper p : proper p -> slashes (as_str p) = as_str p.
Proof.
  intros (_ & F). unfold slashes. rewrite <- (map_id (as_str p)) at 2. apply map_ext_in. intros b I. destruct (N.eqb_spec b 92) as [->|]; [|reflexivity]. exfalso.
  unfold as_str in I. apply in_flat_map in I as (c & Ic & [E|I]); [discriminate E|]. rewrite Forall_forall in F. destruct (F c Ic) as (_ & _ & X & _). exact (X I).
Qed.
Lemma steps_names p : Forall (fun c => c <> [] /\ c <> bs "." /\ c <> bs "..") p -> forall base, fold_left vfs_step p base = base ++ p.
Proof.
  induction 1 as [|c p (A & B & C) F IH]; intros base; [now rewrite app_nil_r|]. cbn [fold_left]. rewrite IH. unfold vfs_step.
  apply eqb_bytes_false in A, B, C. change (bs ".") with [46] in B. change (bs "..") with [46; 46] in C. rewrite A, B, C. now rewrite <- app_assoc.
Qed.
Lemma split_as_str p : Forall (fun c => ~ In 47 c) p -> p <> [] -> split_on 47 (as_str p) = [] :: p.
Proof.
  intros F NE. destruct F as [|c p Nc F]; [congruence|]. clear NE. unfold as_str. cbn [flat_map app]. etransitivity; [exact (split_on_app 47 [] _ ltac:(intros []))|]. f_equal. revert c Nc. induction F as [|d p Nd F IH]; intros c Nc; cbn [flat_map]; [rewrite app_nil_r; now apply split_on_none|].
  cbn [app]. rewrite (split_on_app 47 c) by exact Nc. f_equal. now apply IH.
Qed.
Lemma join_as_str p : proper p -> vfs_join [] (as_str p) = Some p.
Proof.
  intros P. pose proof (proper_names p P) as Nm. destruct P as (NE & F). unfold vfs_join. destruct (as_str p) as [|x r] eqn:E; [destruct p; [congruence|discriminate E]|]. rewrite <- E.
  assert (Es : ends_slash (as_str p) = false).
  { unfold ends_slash. destruct (exists_last NE) as (p' & c & Ep). rewrite Forall_forall in F. destruct (F c) as (Cn & Cs & _); [rewrite Ep; apply in_or_app; right; now left|].
    rewrite Ep. unfold as_str. rewrite flat_map_app. cbn [flat_map]. rewrite app_nil_r, rev_app_distr. destruct (exists_last Cn) as (c' & y & Ec). rewrite Ec in *. change (47 :: c' ++ [y]) with ((47 :: c') ++ [y]). rewrite rev_app_distr. cbn [rev app].
    destruct ((rev c' ++ [47]) ++ rev (flat_map (fun c0 => 47 :: c0) p')) eqn:E2; [reflexivity|]. apply N.eqb_neq. intros ->. apply Cs. apply in_or_app. right. now left. }
  rewrite Es. rewrite split_as_str by assumption. f_equal. cbn [fold_left]. rewrite steps_names; [destruct (x =? 47); reflexivity|]. eapply Forall_impl; [|exact F]. intros c (A & _ & _ & B & C). auto.
Qed.
Lemma strip_app f r : strip_prefix f (f ++ r) = Some r.
Proof. unfold strip_prefix. assert (starts_with f (f ++ r) = true) as -> by (apply starts_with_spec; eauto). now rewrite skipn_app, skipn_all, Nat.sub_diag. Qed.

(** Different files in a folder have different URLs. *)
Theorem C98_distinct : forall folder p q, proper p -> proper q -> to_url folder p = to_url folder q -> p = q.
Proof.
  intros folder p q P Q E. unfold to_url in E. apply app_inv_head in E. rewrite !unslash_encode, !slashes_proper in E by assumption. apply marks_inj in E. apply as_str_inj; auto using proper_names.
Qed.
(** The folder's root on disk is the path that its URL writes; and what the server writes for a file is a way to write its path. *)
Theorem C98_root : forall u s, encodes u s -> root_of u = s.
Proof. exact decode_encodes. Qed.
Theorem C98_written : forall folder p, proper p -> Forall (Forall (fun b => b < 256)) p -> exists u, to_url folder p = folder ++ u /\ encodes u (as_str p).
Proof.
  intros folder p P B. exists (flat_map mark (as_str p)). split; [unfold to_url; now rewrite unslash_encode, slashes_proper|]. apply encodes_marks. apply Forall_forall. intros b I. unfold as_str in I. apply in_flat_map in I as (c & Ic & [E|I]); [subst b; reflexivity|].
  rewrite Forall_forall in B. specialize (B c Ic). rewrite Forall_forall in B. auto.
Qed.

(** ** The folder of a URL *)
Lemma common_all f r : common f (f ++ r) = length f.
Proof. induction f as [|x f IH]; cbn [app common length]; [now destruct r|]. rewrite N.eqb_refl. now f_equal. Qed.
Lemma common_begins f g r : (length f <= common g (f ++ r))%nat -> begins f g.
Proof.
  revert g. induction f as [|x f IH]; intros g L; [now exists g|]. destruct g as [|y g]; cbn [app common length] in L; [lia|]. destruct (N.eqb_spec y x) as [->|]; [|lia].
  destruct (IH g) as (t & ->); [lia|]. now exists t.
Qed.
Lemma begins_common f g r : begins f g -> (length f <= common g (f ++ r))%nat.
Proof. intros (t & ->). induction f as [|x f IH]; cbn [app common length]; [lia|]. rewrite N.eqb_refl. lia. Qed.
Lemma better_keeps url ws : forall best n, (forall g, In g ws -> (common g url <= n)%nat) -> fold_left (better url) ws (best, n) = (best, n).
Proof.
  induction ws as [|g ws IH]; intros best n L; [reflexivity|]. cbn [fold_left]. unfold better at 2. cbn [snd]. destruct (Nat.ltb_spec n (common g url)) as [H|H]; [specialize (L g (or_introl eq_refl)); lia|]. apply IH. intros h I. apply L. now right.
Qed.
Lemma better_bound url ws : forall best n m, (n < m)%nat -> (forall g, In g ws -> (common g url < m)%nat) -> (snd (fold_left (better url) ws (best, n)) < m)%nat.
Proof.
  induction ws as [|g ws IH]; intros best n m Lt L; [exact Lt|]. cbn [fold_left]. unfold better at 2. cbn [snd]. destruct (Nat.ltb_spec n (common g url)); apply IH; try (intros h I; apply L; now right); [apply L; now left|exact Lt].
Qed.
Lemma better_mono url ws : forall best, (snd best <= snd (fold_left (better url) ws best))%nat.
Proof.
  induction ws as [|g ws IH]; intros best; [cbn; lia|]. cbn [fold_left]. specialize (IH (better url best g)). assert (L : (snd best <= snd (better url best g))%nat); [|lia].
  unfold better. destruct (Nat.ltb_spec (snd best) (common g url)); cbn [snd]; lia.
Qed.
(** The choice only takes a folder that shares more than the best so far. *)
Lemma not_chosen url f ws : forall best, (common f url <= snd best)%nat -> fst best <> Some f -> fst (fold_left (better url) ws best) <> Some f.
Proof.
  induction ws as [|g ws IH]; intros best L NE; [exact NE|]. cbn [fold_left]. unfold better at 2. destruct (Nat.ltb_spec (snd best) (common g url)) as [Lt|]; [|now apply IH].
  apply IH; cbn [fst snd]; [lia|]. intros E. injection E as ->. lia.
Qed.
(** A file's URL is taken to be in its folder, in whatever order the folders are looked at, just if the path of no other open folder begins with the folder's. *)
Theorem C98_folder : forall ws f rest, In f ws -> f <> [] ->
  ((forall ws', Permutation ws ws' -> guess ws' (f ++ rest) = Some f) <-> forall g, In g ws -> g <> f -> ~ begins f g).
Proof.
  intros ws f rest If NE. split.
  - intros All g Ig Ng B. destruct (in_split g ws Ig) as (a & b & Ew). specialize (All (g :: a ++ b)). apply (not_chosen (f ++ rest) f (a ++ b) (better (f ++ rest) (None, O) g)).
    + pose proof (begins_common f g rest B) as L. rewrite common_all. unfold better. cbn [snd]. destruct (Nat.ltb_spec 0 (common g (f ++ rest))); cbn [snd]; lia.
    + unfold better. cbn [snd]. destruct (0 <? common g (f ++ rest))%nat; cbn [fst]; congruence.
    + unfold guess in All. cbn [fold_left] in All. apply All. rewrite Ew. apply Permutation_sym, Permutation_middle.
  - intros No ws' P. assert (If' : In f ws') by (now apply (Permutation_in _ P)). assert (No' : forall g, In g ws' -> g <> f -> ~ begins f g) by (intros g Ig; apply No; apply (Permutation_in _ (Permutation_sym P)); exact Ig). clear No P If.
    assert (Lf : (0 < length f)%nat) by (destruct f; [congruence|cbn [length]; lia]).
    (* the first [f] in the list wins *)
    assert (Ex : exists a b, ws' = a ++ f :: b /\ ~ In f a).
    { clear No'. induction ws' as [|g ws' IH]; [destruct If'|]. destruct (eqb_bytes g f) eqn:E; [apply eqb_bytes_spec in E as ->; exists [], ws'; auto|]. apply eqb_bytes_false in E. destruct If' as [|If']; [congruence|]. destruct (IH If') as (a & b & -> & Na). exists (g :: a), b. split; [reflexivity|]. intros [|]; [congruence|auto]. }
    destruct Ex as (a & b & -> & Na). unfold guess. rewrite fold_left_app. cbn [fold_left].
    pose proof (better_bound (f ++ rest) a None O (length f) Lf) as B. destruct (fold_left (better (f ++ rest)) a (None, O)) as [best n]. cbn [snd] in B.
    assert (n < length f)%nat.
    { apply B. intros g Ig. destruct (Nat.ltb_spec (common g (f ++ rest)) (length f)); [assumption|]. exfalso. apply (No' g); [apply in_or_app; now left|intros ->; contradiction|]. apply (common_begins f g rest). assumption. }
    unfold better at 2. cbn [snd]. rewrite common_all. assert ((n <? length f)%nat = true) as -> by (apply Nat.ltb_lt; assumption).
    rewrite better_keeps; [reflexivity|]. intros g Ig. destruct (Nat.leb_spec (common g (f ++ rest)) (length f)) as [|Gt]; [assumption|]. exfalso.
    apply (No' g); [apply in_or_app; right; now right| |apply (common_begins f g rest); lia]. intros ->. rewrite common_all in Gt. lia.
Qed.
(** The server finds a file by the URL it writes for it, whatever order the folders come in, if the names in its path are plain ... *)
Theorem C98_found : forall ws f p, In f ws -> f <> [] -> (forall g, In g ws -> g <> f -> ~ begins f g) ->
  proper p -> plain_path p -> file_of ws (to_url f p) = Joined p.
Proof.
  intros ws f p If NE No P Pl. unfold file_of. assert (G : guess ws (to_url f p) = Some f) by (unfold to_url; apply C98_folder with (ws := ws); auto). rewrite G. unfold join_url, to_url. rewrite strip_app.
  rewrite unslash_encode, slashes_proper by exact P.
  assert (flat_map mark (as_str p) = as_str p) as ->.
  { clear - Pl. induction Pl as [|c p Pc Pl IH]; [reflexivity|]. cbn [as_str flat_map]. rewrite flat_map_app. fold (as_str p). rewrite IH. f_equal. cbn [flat_map]. change (mark 47) with [47]. cbn [app]. f_equal.
    induction Pc as [|b c Pb Pc IHc]; [reflexivity|]. cbn [flat_map]. rewrite IHc. unfold mark. apply unreserved_spec in Pb. rewrite Pb. destruct (N.eqb_spec b 47) as [->|]; [discriminate Pb|reflexivity]. }
  rewrite join_as_str by exact P. reflexivity.
Qed.
(** ... and never if they are not: the path of the URL is not decoded. *)
Lemma mark_len b : (1 <= length (mark b))%nat.
Proof. unfold mark, escape. destruct (b =? 47), (unreserved b); cbn [length]; lia. Qed.
Lemma marks_longer s : (length s <= length (flat_map mark s))%nat.
Proof. induction s as [|b s IH]; [cbn; lia|]. cbn [flat_map length]. rewrite app_length. pose proof (mark_len b). lia. Qed.
Theorem C98_lost : forall ws f p, In f ws -> f <> [] -> (forall g, In g ws -> g <> f -> ~ begins f g) ->
  proper p -> Forall (Forall (fun b => b < 256)) p -> ~ plain_path p -> exists q, file_of ws (to_url f p) = Joined q /\ q <> p.
Proof.
  intros ws f p If NE No P By Pl. unfold file_of. assert (G : guess ws (to_url f p) = Some f) by (unfold to_url; apply C98_folder with (ws := ws); auto). rewrite G. unfold join_url, to_url. rewrite strip_app.
  rewrite unslash_encode, slashes_proper by exact P. set (q := map (flat_map mark) p).
  assert (Eq : flat_map mark (as_str p) = as_str q).
  { unfold q. clear. induction p as [|c p IH]; [reflexivity|]. cbn [as_str flat_map map]. rewrite flat_map_app. fold (as_str p). rewrite IH. reflexivity. }
  assert (No47 : forall c, ~ In 47 c -> ~ In 47 (flat_map mark c)).
  { intros c Nc I. apply in_flat_map in I as (b & Ib & I). unfold mark in I. destruct (N.eqb_spec b 47) as [->|]; [contradiction|]. destruct (unreserved b); [destruct I as [->|[]]; contradiction|]. unfold escape in I. cbn [In] in I. pose proof (hex_big (b / 16)). pose proof (hex_big (b mod 16)). lia. }
  assert (Pq : proper q).
  { unfold q. destruct P as (Pn & F). split; [destruct p; [congruence|discriminate]|]. apply Forall_map. apply Forall_forall. intros c Ic. rewrite Forall_forall in F, By. pose proof (By c Ic) as Bc. rewrite Forall_forall in Bc. destruct (F c Ic) as (A & B & C & D & E).
    assert (Dot : forall k, flat_map mark c = repeat 46 k -> c = repeat 46 k).
    { clear. induction c as [|b c IH]; intros [|k] Ek; cbn [flat_map repeat] in *; [reflexivity|discriminate Ek| |]; revert Ek; unfold mark at 1; destruct (N.eqb_spec b 47) as [->|]; try discriminate; destruct (unreserved b); unfold escape; try discriminate.
      cbn [app]. intros Ek. injection Ek as -> Ek. f_equal. now apply IH. }
    split; [intros Z; apply A; pose proof (marks_longer c) as L; rewrite Z in L; destruct c; [reflexivity|cbn [length] in L; lia]|]. split; [now apply No47|]. split; [|split; [intros Z; apply D; exact (Dot 1%nat Z)|intros Z; apply E; exact (Dot 2%nat Z)]].
    intros I. apply in_flat_map in I as (b & Ib & I). unfold mark in I. destruct (N.eqb_spec b 47) as [->|]; [contradiction|]. destruct (unreserved b); [destruct I as [->|[]]; contradiction|]. unfold escape in I. cbn [In] in I. pose proof (N.mod_lt b 16) as Md. pose proof (Bc b Ib) as Lb. pose proof (N.div_lt_upper_bound b 16 16) as Dv.
    destruct I as [I|[I|[I|[]]]]; [discriminate I| |]; change 92 with (hex 37) in I; apply hex_inj in I; lia. }
  exists q. rewrite Eq, join_as_str by exact Pq. split; [reflexivity|]. intros E. apply Pl. unfold q in E. apply proper_names in P. clear - E P.
  unfold plain_path. induction P as [|c p Nc P IH]; [constructor|]. cbn [map] in E. injection E as Ec E. constructor; [|now apply IH]. clear - Ec Nc.
  induction c as [|b c IH]; [constructor|]. cbn [flat_map] in Ec. unfold mark at 1 in Ec. destruct (N.eqb_spec b 47) as [->|]; [exfalso; apply Nc; now left|]. destruct (unreserved b) eqn:U.
  - constructor; [now apply unreserved_spec|]. injection Ec as Ec. apply IH; [intros I; apply Nc; now right|exact Ec].
  - exfalso. apply (f_equal (@length N)) in Ec. unfold escape in Ec. cbn [app length] in Ec. pose proof (marks_longer c). lia.
Qed.

(** A URL that begins with no open folder's path: the request panics. *)
Theorem C98_outside : forall ws u, ws <> [] -> Forall (fun f => exists r, f = 47 :: r) ws -> (exists r, u = 47 :: r) ->
  Forall (fun f => ~ begins f u) ws -> file_of ws u = Panics.
Proof.
  intros ws u NE F (r & ->) No. unfold file_of.
  assert (K : forall ws best, Forall (fun f => ~ begins f (47 :: r)) ws -> (forall f, fst best = Some f -> ~ begins f (47 :: r)) -> forall f, fst (fold_left (better (47 :: r)) ws best) = Some f -> ~ begins f (47 :: r)).
  { clear. induction ws as [|g ws IH]; intros best Fa B; [exact B|]. inversion Fa as [|? ? Ng Fa']; subst. cbn [fold_left]. apply IH; [exact Fa'|]. unfold better. destruct (Nat.ltb (snd best) (common g (47 :: r))); [cbn [fst]; intros f [= <-]; exact Ng|exact B]. }
  assert (J : exists f, guess ws (47 :: r) = Some f).
  { destruct ws as [|g ws]; [congruence|]. inversion F as [|? ? (t & Eg) F']; subst. unfold guess. cbn [fold_left]. unfold better at 2. cbn [snd common]. rewrite N.eqb_refl. cbn [Nat.ltb Nat.leb].
    assert (S' : forall ws best, (exists f, fst best = Some f) -> exists f, fst (fold_left (better (47 :: r)) ws best) = Some f).
    { clear. induction ws as [|g ws IH]; intros best B; [exact B|]. cbn [fold_left]. apply IH. unfold better. destruct (Nat.ltb (snd best) (common g (47 :: r))); [cbn [fst]; eauto|exact B]. }
    apply S'. cbn [fst]. eauto. }
  destruct J as (f & Ef). rewrite Ef. pose proof (K ws (None, O) No ltac:(cbn [fst]; discriminate) f Ef) as Nf. unfold join_url, strip_prefix.
  destruct (starts_with f (47 :: r)) eqn:Sw; [|reflexivity]. exfalso. apply Nf. apply starts_with_spec in Sw. exact Sw.
Qed.
(** The open folders are those whose last mention was to be added, and that could be. *)
Theorem C98_open : forall es ws f, In f (changes ws es) <-> open_after ws es f.
Proof.
  intros es ws f. unfold changes, open_after. induction es as [|e es IH] using rev_ind.
  - cbn [fold_left]. split; [intros I; left; auto|]. intros [(I & _)|(es1 & es2 & E & _)]; [exact I|destruct es1; discriminate E].
  - rewrite fold_left_app. cbn [fold_left]. set (w := fold_left change es ws) in *.
    assert (Fil : forall g, In f (filter (fun x => negb (eqb_bytes x g)) w) <-> In f w /\ f <> g) by (intros g; rewrite filter_In, negb_true_iff, eqb_bytes_false; tauto).
    assert (Old : ~ mentions f e -> (In f w <-> In f ws /\ Forall (fun e => ~ mentions f e) (es ++ [e]) \/ exists es1 es2, es ++ [e] = es1 ++ Added f true :: es2 /\ Forall (fun e => ~ mentions f e) es2)).
    { intros Nm. rewrite IH. split.
      - intros [(I & Fa)|(es1 & es2 & -> & Fa)]; [left; split; [exact I|apply Forall_app; auto]|right; exists es1, (es2 ++ [e]); split; [now rewrite <- app_assoc|apply Forall_app; auto]].
      - intros [(I & Fa)|(es1 & es2 & E & Fa)]; [left; apply Forall_app in Fa as (Fa & _); auto|]. right. destruct es2 as [|e2 es2 _] using rev_ind.
        + apply app_inj_tail in E as (_ & ->). exfalso. now apply Nm.
        + change (Added f true :: es2 ++ [e2]) with ((Added f true :: es2) ++ [e2]) in E. rewrite app_assoc in E. apply app_inj_tail in E as (-> & _). exists es1, es2. apply Forall_app in Fa as (Fa & _). auto. }
    assert (New : mentions f e -> e <> Added f true -> ~ (In f ws /\ Forall (fun e => ~ mentions f e) (es ++ [e]) \/ exists es1 es2, es ++ [e] = es1 ++ Added f true :: es2 /\ Forall (fun e => ~ mentions f e) es2)).
    { intros M Ne [(_ & Fa)|(es1 & es2 & E & Fa)]; [apply Forall_app in Fa as (_ & Fa); inversion Fa; subst; contradiction|]. destruct es2 as [|e2 es2 _] using rev_ind.
      - apply app_inj_tail in E as (_ & ->). congruence.
      - change (Added f true :: es2 ++ [e2]) with ((Added f true :: es2) ++ [e2]) in E. rewrite app_assoc in E. apply app_inj_tail in E as (_ & ->). apply Forall_app in Fa as (_ & Fa). inversion Fa; subst; contradiction. }
    destruct e as [g|g ok]; cbn [change mentions] in *.
    + etransitivity; [apply Fil|]. destruct (eqb_bytes g f) eqn:E; [apply eqb_bytes_spec in E as ->; split; [intros (_ & N1); congruence|intros H; exfalso; revert H; now apply New]|]. apply eqb_bytes_false in E. rewrite <- (Old E). split; [tauto|intros I; split; [exact I|congruence]].
    + destruct (eqb_bytes g f) eqn:E.
      * apply eqb_bytes_spec in E as ->. destruct ok; [split; [intros _; right; exists es, []; auto|intros _; now left]|]. rewrite Fil. split; [intros (_ & N1); congruence|intros H; exfalso; revert H; apply New; [reflexivity|discriminate]].
      * apply eqb_bytes_false in E. rewrite <- (Old E). assert (Fg : In f (filter (fun x => negb (eqb_bytes x g)) w) <-> In f w) by (rewrite Fil; split; [tauto|intros I; split; [exact I|congruence]]). destruct ok; [cbn [In]|]; rewrite Fg; split; auto. intros [|]; [congruence|assumption].
Qed.

(** ** Examples, and where it is not so *)
Definition ex_folders : list text := [bs "/home/me/mod"; bs "/home/me/other%20mod"; bs "/home/me/mod2"].
Example C98_project :
  root_of (bs "/home/me/other%20mod") = bs "/home/me/other mod" /\
  proper [bs "addons"; bs "main"; bs "fnc_init.sqf"] /\ plain_path [bs "addons"; bs "main"; bs "fnc_init.sqf"] /\
  to_url (bs "/home/me/other%20mod") [bs "addons"; bs "main"; bs "fnc_init.sqf"] = bs "/home/me/other%20mod/addons/main/fnc_init.sqf" /\
  file_of ex_folders (bs "/home/me/other%20mod/addons/main/fnc_init.sqf") = Joined [bs "addons"; bs "main"; bs "fnc_init.sqf"] /\
  file_of ex_folders (bs "/home/you/x.sqf") = Panics /\
  (forall g, In g ex_folders -> g <> bs "/home/me/other%20mod" -> ~ begins (bs "/home/me/other%20mod") g).
Proof.
  split; [vm_compute; reflexivity|]. split; [|split; [|split; [|split; [|split]]]]; try (vm_compute; reflexivity).
  - split; [discriminate|]. apply Forall_forall. intros c [<-|[<-|[<-|[]]]]; vm_compute; intuition discriminate.
  - apply Forall_forall. intros c I. apply Forall_forall. intros b J. apply unreserved_spec. revert b J. apply forallb_forall. revert c I. apply forallb_forall. vm_compute. reflexivity.
  - intros g I Ng B. apply starts_with_spec in B. destruct I as [<-|[<-|[<-|[]]]]; [vm_compute in B; discriminate B|congruence|vm_compute in B; discriminate B].
Qed.
(** A folder whose path begins with that of another one takes its files, in some orders. *)
Theorem C98_beside_refuted : let f := bs "/home/me/mod" in let ws := ex_folders in let u := to_url f [bs "addons"; bs "x.sqf"] in
  guess ws u = Some f /\ exists ws', Permutation ws ws' /\ file_of ws' u = Panics.
Proof. cbn zeta. split; [vm_compute; reflexivity|]. exists (rev ex_folders). split; [apply Permutation_rev|vm_compute; reflexivity]. Qed.
(** A folder in another one that shares a beginning with the file's folder: the request panics in every order. *)
Theorem C98_nested_refuted : let f := bs "/a" in let ws := [f; bs "/a/bx"] in let u := to_url f [bs "by"; bs "x.sqf"] in
  forall ws', Permutation ws ws' -> file_of ws' u = Panics.
Proof.
  cbn zeta. intros ws' P. assert (E : ws' = [bs "/a"; bs "/a/bx"] \/ ws' = [bs "/a/bx"; bs "/a"]).
  { pose proof (Permutation_length P) as L. destruct ws' as [|x [|y [|z w]]]; try discriminate L. apply Permutation_length_2_inv in P as [P|P]; [left|right]; exact P. }
  destruct E as [->| ->]; vm_compute; reflexivity.
Qed.
(** A file outside the folder, in one whose name begins alike, is taken for another file. *)
Theorem C98_alike_refuted : file_of [bs "/a/mod"] (bs "/a/mod2/x.sqf") = Joined [bs "2"; bs "x.sqf"].
Proof. vm_compute. reflexivity. Qed.
(** A file with a space in its name is not found again. *)
Theorem C98_space_refuted : let p := [bs "addons"; bs "my file.sqf"] in
  to_url (bs "/m") p = bs "/m/addons/my%20file.sqf" /\ file_of [bs "/m"] (to_url (bs "/m") p) = Joined [bs "addons"; bs "my%20file.sqf"].
Proof. vm_compute. auto. Qed.
(** A backslash in a file's name is taken for a slash: two files with one URL. *)
Theorem C98_backslash_refuted : to_url (bs "/m") [bs "a\b"] = to_url (bs "/m") [bs "a"; bs "b"].
Proof. vm_compute. reflexivity. Qed.

Print Assumptions C98_distinct.
Print Assumptions C98_root.
Print Assumptions C98_written.
Print Assumptions C98_folder.
Print Assumptions C98_found.
Print Assumptions C98_lost.
Print Assumptions C98_outside.
Print Assumptions C98_open.
Print Assumptions C98_beside_refuted.
Print Assumptions C98_nested_refuted.
Print Assumptions C98_alike_refuted.
Print Assumptions C98_space_refuted.
Print Assumptions C98_backslash_refuted.
