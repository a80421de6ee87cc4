(** C106. *)
From Coq Require Import String.
From Verif Require Import Base.Tactics Base.Bytes Base.Ascii Base.Sort Io.Model Io.Spec Io.Proofs Signing.Fermat Signing.Model Signing.Spec Signing.Proofs Signing.Digests Bin.InspectModel Bin.InspectSpec.
From Verif Require Pbo.Model Paa.Model.
Local Open Scope N_scope.
Local Open Scope list_scope.

(** ** The name *)
Lemma ext_of name e : ~ In 47 name -> In e known -> (extension name = e <-> exists stem, stem <> [] /\ name = stem ++ bs "." ++ e).
Proof.
  intros S K. assert (NE : e <> []) by (unfold known in K; apply in_map_iff in K as (x & <- & K); repeat (destruct K as [<-|K]; [discriminate|]); destruct K).
  assert (ND : ~ In 46 e) by (unfold known in K; apply in_map_iff in K as (x & <- & K); repeat (destruct K as [<-|K]; [vm_compute; intuition discriminate|]); destruct K).
  rewrite (extension_spec name e S NE). unfold ends_in. split; [intros (b & B & E & _); now exists b|intros (b & B & E); now exists b].
Qed.
Lemma unsaid_sniff name file : ~ In 47 name -> unsaid name -> inspect name file = sniff file.
Proof.
  intros S U. unfold inspect.
  assert (X : forall e, In e known -> eqb_bytes (extension name) e = false).
  { intros e K. apply eqb_bytes_false. intros E. apply (ext_of name e S K) in E as (b & B & E). exact (U e b K B E). }
  rewrite !X by (unfold known; apply (in_map bs); cbn [In]; tauto). reflexivity.
Qed.
Lemma said_is name stem e : ~ In 47 name -> In e known -> stem <> [] -> name = stem ++ bs "." ++ e -> extension name = e.
Proof. intros S K B E. apply ext_of; [exact S|exact K|]. now exists stem. Qed.

(** ** The beginning of a file *)
Lemma six file a b c d e f r : file = a :: b :: c :: d :: e :: f :: r ->
  sniff file = if eqb_bytes [a; b; c; d; e; f] [0; 115; 114; 101; 86; 0] then Shows Archive else if eqb_bytes [c; d; e; f] (bs "GGAT") then Shows Picture
    else match read_sign file with SErr SPanic => Panics | SOk _ => bisign file | SErr _ => match read_public file with SErr SPanic => Panics | SOk _ => bikey file | SErr _ => Unsupported end end.
Proof. intros ->. reflexivity. Qed.

(** Whatever they are called, archives and pictures made by hemtt are taken for what they are. *)
Theorem C106_archive : forall lower sha iter w out digest name, ~ In 47 name -> unsaid name ->
  Pbo.Model.write lower sha iter true w = Pbo.Model.Ok (out, digest) -> inspect name out = Shows Archive.
Proof.
  intros lower sha iter w out digest name S U W. rewrite unsaid_sniff by assumption. unfold Pbo.Model.write in W.
  destruct (Pbo.Model.write_bodies w _) as [bodies|]; [|discriminate]. apply (f_equal (fun x => match x with Pbo.Model.Ok (o, _) => o | _ => [] end)) in W. rewrite <- W. clear W.
  rewrite <- !app_assoc. reflexivity.
Qed.
Theorem C106_picture : forall compress i out name, ~ In 47 name -> unsaid name -> Paa.Model.write compress i = Paa.Model.Done out -> inspect name out = Shows Picture.
Proof.
  intros compress i out name S U W. rewrite unsaid_sniff by assumption. unfold Paa.Model.write in W. destruct (_ =? 0); [discriminate|].
  destruct (fold_left Paa.Model.sum_step _ _) as [[[r g] b] a]. destruct (fold_left Paa.Model.max_step _ _) as [[[r' g'] b'] a'].
  destruct (_ <? _); [|discriminate]. apply (f_equal (fun x => match x with Paa.Model.Done o => o | _ => [] end)) in W. rewrite <- W. reflexivity.
Qed.

(** Beginnings of keys. *)
Lemma u32_is v : v < 2 ^ 32 -> exists a b c d, u32_bytes v = [a; b; c; d] /\ read_u32 [a; b; c; d] = Some (v, []).
Proof.
  intros V. eexists _, _, _, _. split; [reflexivity|]. pose proof (read_u32_app v [] ltac:(lia)) as L. rewrite app_nil_r in L. exact L.
Qed.
Lemma key_start auth v h rest : h <> 84 -> no_nul auth -> ~ picturesque auth -> v < 2 ^ 29 + 20 ->
  exists a b c d e f r, write_cstring auth ++ u32_bytes v ++ h :: 2 :: rest = a :: b :: c :: d :: e :: f :: r /\
    eqb_bytes [a; b; c; d; e; f] [0; 115; 114; 101; 86; 0] = false /\ eqb_bytes [c; d; e; f] (bs "GGAT") = false.
Proof.
  intros HH NN NP V. destruct (u32_is v ltac:(lia)) as (w & x & y & z & -> & R). unfold write_cstring. rewrite <- app_assoc. cbn [app].
  assert (NV : [w; x; y; z] <> [115; 114; 101; 86]) by (intros E; injection E as -> -> -> ->; vm_compute in R; injection R as <-; lia).
  assert (NG : [w; x; y; z] <> [71; 71; 65; 84]) by (intros E; injection E as -> -> -> ->; vm_compute in R; injection R as <-; lia).
  assert (NZ : forall k, In k auth -> k <> 0) by (intros k I ->; exact (NN I)).
  change (bs "GGAT") with [71; 71; 65; 84].
  destruct auth as [|a0 auth].
  { do 7 eexists. split; [reflexivity|]. split; apply eqb_bytes_false; intros E; [apply NV|]; congruence. }
  assert (A0 : a0 <> 0) by (apply NZ; now left).
  destruct auth as [|a1 auth].
  { do 7 eexists. split; [reflexivity|]. split; apply eqb_bytes_false; intros E; [|apply NG]; congruence. }
  destruct auth as [|a2 auth].
  { do 7 eexists. split; [reflexivity|]. split; apply eqb_bytes_false; intros E; congruence. }
  destruct auth as [|a3 auth].
  { do 7 eexists. split; [reflexivity|]. split; apply eqb_bytes_false; intros E; congruence. }
  destruct auth as [|a4 auth].
  { do 7 eexists. split; [reflexivity|]. split; apply eqb_bytes_false; intros E; congruence. }
  destruct auth as [|a5 auth].
  { do 7 eexists. split; [reflexivity|]. split; apply eqb_bytes_false; intros E; congruence. }
  do 7 eexists. split; [reflexivity|]. split; apply eqb_bytes_false; intros E; [congruence|]. apply NP. injection E as -> -> -> ->. now exists a0, a1, auth.
Qed.
Lemma key_sniff file auth v h rest : h <> 84 -> file = write_cstring auth ++ u32_bytes v ++ h :: 2 :: rest -> no_nul auth -> ~ picturesque auth -> v < 2 ^ 29 + 20 ->
  sniff file = match read_sign file with SErr SPanic => Panics | SOk _ => bisign file | SErr _ => match read_public file with SErr SPanic => Panics | SOk _ => bikey file | SErr _ => Unsupported end end.
Proof.
  intros HH E NN NP V. destruct (key_start auth v h rest HH NN NP V) as (a & b & c & d & e & f & r & F & X & Y). rewrite <- E in F. rewrite (six _ _ _ _ _ _ _ _ F), X, Y. reflexivity.
Qed.
(** So are signatures and public keys, if their authority does not begin with two characters and GGAT; a public key is not taken for a
    signature. *)
Theorem C106_signature : forall s name, ~ In 47 name -> unsaid name -> sign_fits s -> ~ picturesque (s_authority s) -> inspect name (write_sign s) = Shows (Signature s).
Proof.
  intros s name S U F NP. rewrite unsaid_sniff by assumption. pose proof (sign_roundtrip s [] F) as R. rewrite app_nil_r in R. destruct F as ((NN & _) & L & _).
  rewrite (key_sniff _ (s_authority s) (s_length s / 8 + 20) 6 _ ltac:(discriminate) (eq_refl : write_sign s = _) NN NP ltac:(lia)). unfold bisign. rewrite R. reflexivity.
Qed.
Lemma public_no_sign k : public_fits k -> exists e, read_sign (write_public k) = SErr e /\ e <> SPanic.
Proof.
  intros ([Ha Hu] & Hl & He & Hn). unfold read_sign, write_public. rewrite read_write_cstring by auto. rewrite read32_app by lia. cbn [sbind].
  match goal with |- context [read32 ([6; 2; 0; 0; 0; 36; 0; 0] ++ [82; 83; 65; 49] ++ ?r)] =>
    destruct (skip12 ([6; 2; 0; 0; 0; 36; 0; 0] ++ [82; 83; 65; 49]) r eq_refl) as (a & b & c & l1 & l2 & E1 & E2 & E3) end.
  rewrite <- app_assoc in E1. rewrite E1. cbn [sbind]. rewrite E2. cbn [sbind]. rewrite E3. cbn [sbind].
  rewrite read32_app by auto. cbn [sbind]. rewrite read32_exp by auto. cbn [sbind].
  rewrite N.eqb_refl. cbn [negb]. rewrite <- (app_nil_r (write_biguint (p_n k) _)). rewrite read_biguint_app by auto. cbn [sbind]. exists SEof. split; [reflexivity|discriminate].
Qed.
Theorem C106_public_key : forall k name, ~ In 47 name -> unsaid name -> public_fits k -> ~ picturesque (p_authority k) -> inspect name (write_public k) = Shows (Key k).
Proof.
  intros k name S U F NP. rewrite unsaid_sniff by assumption. pose proof (public_roundtrip k [] F) as R. rewrite app_nil_r in R. destruct (public_no_sign k F) as (e & X & NE).
  destruct F as ((NN & _) & L & _).
  rewrite (key_sniff _ (p_authority k) (p_length k / 8 + 20) 6 _ ltac:(discriminate) (eq_refl : write_public k = _) NN NP ltac:(lia)). rewrite X. unfold bikey. rewrite R. destruct e; try reflexivity. contradiction.
Qed.
(** The extension, in lower case, goes before what is in the file. *)
Theorem C106_extension : forall stem e file, stem <> [] -> ~ In 47 stem ->
  (e = bs "pbo" -> inspect (stem ++ bs "." ++ e) file = Shows Archive) /\ (e = bs "paa" -> inspect (stem ++ bs "." ++ e) file = Shows Picture) /\
  (e = bs "cpp" \/ e = bs "hpp" -> inspect (stem ++ bs "." ++ e) file = Shows Config) /\
  (forall k rest, e = bs "bikey" -> file = write_public k ++ rest -> public_fits k -> inspect (stem ++ bs "." ++ e) file = Shows (Key k)) /\
  (forall s rest, e = bs "bisign" -> file = write_sign s ++ rest -> sign_fits s -> inspect (stem ++ bs "." ++ e) file = Shows (Signature s)).
Proof.
  intros stem e file NE S.
  assert (X : In e known -> extension (stem ++ bs "." ++ e) = e).
  { intros K. eapply said_is; [|exact K|exact NE|reflexivity]. intros I. apply in_app_iff in I as [I|[I|I]]; [contradiction|discriminate|].
    unfold known in K. apply in_map_iff in K as (x & <- & K). revert I. repeat (destruct K as [<-|K]; [vm_compute; intuition discriminate|]). destruct K. }
  unfold inspect. repeat split.
  - intros ->. rewrite X by (apply (in_map bs); cbn [In]; tauto). reflexivity.
  - intros ->. rewrite X by (apply (in_map bs); cbn [In]; tauto). reflexivity.
  - intros [-> | ->]; rewrite X by (apply (in_map bs); cbn [In]; tauto); reflexivity.
  - intros k rest -> -> F. rewrite X by (apply (in_map bs); cbn [In]; tauto). transitivity (bikey (write_public k ++ rest)); [reflexivity|]. unfold bikey. now rewrite public_roundtrip.
  - intros s rest -> -> F. rewrite X by (apply (in_map bs); cbn [In]; tauto). transitivity (bisign (write_sign s ++ rest)); [reflexivity|]. unfold bisign. now rewrite sign_roundtrip.
Qed.

(** Files without a NUL byte, such as text files, are said to be of an unsupported type. *)
Lemma until_nul_none l : no_nul l -> until_nul l = (l, []).
Proof. induction l as [|x l IH]; intros H; [reflexivity|]. cbn [until_nul]. assert (x <> 0) by (intros ->; apply H; now left). destruct (N.eqb_spec x 0); [contradiction|]. rewrite IH; [reflexivity|]. intros I. apply H. now right. Qed.
Lemma until_nul_at l r : no_nul l -> until_nul (l ++ [0] ++ r) = (l, r).
Proof. induction l as [|x l IH]; intros H; [reflexivity|]. cbn [until_nul app]. assert (x <> 0) by (intros ->; apply H; now left). destruct (N.eqb_spec x 0); [contradiction|]. cbn [app] in IH. rewrite IH; [reflexivity|]. intros I. apply H. now right. Qed.
Lemma text_sniff text rest : no_nul text -> (6 <= List.length text)%nat -> ~ picturesque text ->
  sniff (text ++ rest) = match read_sign (text ++ rest) with SErr SPanic => Panics | SOk _ => bisign (text ++ rest) | SErr _ => match read_public (text ++ rest) with SErr SPanic => Panics | SOk _ => bikey (text ++ rest) | SErr _ => Unsupported end end.
Proof.
  intros NN L NP. do 6 (destruct text as [|? text]; [cbn [List.length] in L; lia|]). rewrite (six ((n :: n0 :: n1 :: n2 :: n3 :: n4 :: text) ++ rest) n n0 n1 n2 n3 n4 (text ++ rest) eq_refl).
  replace (eqb_bytes [n; n0; n1; n2; n3; n4] [0; 115; 114; 101; 86; 0]) with false.
  2:{ symmetry. apply eqb_bytes_false. intros E. apply NN. injection E as -> _ _ _ _ _. now left. }
  replace (eqb_bytes [n1; n2; n3; n4] (bs "GGAT")) with false; [reflexivity|].
  symmetry. apply eqb_bytes_false. change (bs "GGAT") with [71; 71; 65; 84]. intros E. apply NP. injection E as -> -> -> ->. now exists n, n0, text.
Qed.
Theorem C106_text : forall text name, ~ In 47 name -> unsaid name -> no_nul text -> (6 <= List.length text)%nat -> ~ picturesque text -> inspect name text = Unsupported.
Proof.
  intros text name S U NN L NP. rewrite unsaid_sniff by assumption. pose proof (text_sniff text [] NN L NP) as X. rewrite app_nil_r in X. rewrite X.
  unfold read_sign, read_public, read_cstring. rewrite until_nul_none by assumption. reflexivity.
Qed.
(** With the extension of a key or a signature they are an error. *)
Theorem C106_text_named_key : forall stem e text, stem <> [] -> ~ In 47 stem -> e = bs "bikey" \/ e = bs "bisign" -> no_nul text -> inspect (stem ++ bs "." ++ e) text = Fails.
Proof.
  intros stem e text NE S K NN.
  assert (X : extension (stem ++ bs "." ++ e) = e).
  { eapply said_is; [|destruct K as [-> | ->]; apply (in_map bs); cbn [In]; tauto|exact NE|reflexivity]. intros I. apply in_app_iff in I as [I|[I|I]]; [contradiction|discriminate|].
    destruct K as [-> | ->]; revert I; vm_compute; intuition discriminate. }
  unfold inspect. rewrite X. destruct K as [-> | ->]; [transitivity (bikey text); [reflexivity|]; unfold bikey, read_public|transitivity (bisign text); [reflexivity|]; unfold bisign, read_sign];
    unfold read_cstring; rewrite until_nul_none by assumption; reflexivity.
Qed.

(** ** What is not recognised *)
(** Every private key ends in a panic. *)
Theorem C106_private_key_refuted : forall k name, ~ In 47 name -> unsaid name -> private_fits k -> 16 <= k_length k -> k_length k < 2 ^ 29 -> ~ picturesque (k_authority k) ->
  inspect name (write_private k) = Panics.
Proof.
  intros k name S U ([Ha Hu] & Hl & He & _) L16 L29 NP. rewrite unsaid_sniff by assumption.
  rewrite (key_sniff _ (k_authority k) (k_length k / 16 * 9 + 20) 7 _ ltac:(discriminate) (eq_refl : write_private k = _) Ha NP ltac:(lia)).
  enough (X : read_sign (write_private k) = SErr SPanic) by now rewrite X.
  unfold read_sign, write_private. cbv zeta. rewrite read_write_cstring by auto. rewrite read32_app by lia. cbn [sbind].
  match goal with |- context [read32 ([7; 2; 0; 0; 0; 36; 0; 0] ++ [82; 83; 65; 50] ++ ?r)] =>
    destruct (skip12 ([7; 2; 0; 0; 0; 36; 0; 0] ++ [82; 83; 65; 50]) r eq_refl) as (a & b & c & l1 & l2 & E1 & E2 & E3) end.
  rewrite <- app_assoc in E1. rewrite E1. cbn [sbind]. rewrite E2. cbn [sbind]. rewrite E3. cbn [sbind].
  rewrite read32_app by auto. cbn [sbind]. rewrite read32_exp by auto. cbn [sbind].
  destruct (N.eqb_spec (k_length k / 16 * 9 + 20) (k_length k / 8 + 20)) as [E|E]; [lia|reflexivity].
Qed.
(** So does every other file in which the number after the first NUL is not the one belonging to the bit length 16 bytes on. *)
Theorem C106_binary_refuted : forall text temp twelve len e rest name, ~ In 47 name -> unsaid name ->
  no_nul text -> (6 <= List.length text)%nat -> ~ picturesque text -> List.length twelve = 12%nat -> temp < 2 ^ 32 -> len < 2 ^ 32 -> e < 2 ^ 32 -> temp <> len / 8 + 20 ->
  inspect name (text ++ [0] ++ u32_bytes temp ++ twelve ++ u32_bytes len ++ u32_bytes e ++ rest) = Panics.
Proof.
  intros text temp twelve len e rest name S U NN L6 NP L12 HT HL HE X. rewrite unsaid_sniff by assumption.
  rewrite (text_sniff text _ NN L6 NP).
  enough (R : read_sign (text ++ [0] ++ u32_bytes temp ++ twelve ++ u32_bytes len ++ u32_bytes e ++ rest) = SErr SPanic) by now rewrite R.
  unfold read_sign, read_cstring. rewrite until_nul_at by assumption. rewrite read32_app by assumption. cbn [sbind].
  destruct (skip12 twelve (u32_bytes len ++ u32_bytes e ++ rest) L12) as (a & b & c & l1 & l2 & E1 & E2 & E3). rewrite E1. cbn [sbind]. rewrite E2. cbn [sbind]. rewrite E3. cbn [sbind].
  rewrite read32_app by assumption. cbn [sbind]. rewrite read32_app by assumption. cbn [sbind].
  destruct (N.eqb_spec temp (len / 8 + 20)); [contradiction|reflexivity].
Qed.
(** A key whose authority has GGAT at its third character is taken for a picture. *)
Theorem C106_authority_refuted : forall k a b r name, ~ In 47 name -> unsaid name -> p_authority k = [a; b] ++ bs "GGAT" ++ r -> a <> 0 ->
  inspect name (write_public k) = Shows Picture.
Proof.
  intros k a b r name S U E NA. rewrite unsaid_sniff by assumption. unfold write_public. rewrite E. unfold write_cstring.
  rewrite (six _ a b 71 71 65 84 (r ++ [0] ++ u32_bytes (p_length k / 8 + 20) ++ [6; 2; 0; 0; 0; 36; 0; 0] ++ [82; 83; 65; 49] ++ u32_bytes (p_length k) ++ write_biguint (p_exponent k) 4 ++ write_biguint (p_n k) (p_length k / 8))).
  - replace (eqb_bytes [a; b; 71; 71; 65; 84] [0; 115; 114; 101; 86; 0]) with false; [reflexivity|]. symmetry. apply eqb_bytes_false. congruence.
  - change (bs "GGAT") with [71; 71; 65; 84]. cbn [app]. rewrite <- !app_assoc. reflexivity.
Qed.
(** A file of fewer than six bytes is an error rather than of an unsupported type. *)
Theorem C106_short_refuted : forall file name, ~ In 47 name -> unsaid name -> (List.length file < 6)%nat -> inspect name file = Fails.
Proof.
  intros file name S U L. rewrite unsaid_sniff by assumption. do 6 (destruct file as [|? file]; [reflexivity|]). cbn [List.length] in L. lia.
Qed.

(** Keys and signatures with an ordinary authority meet the hypotheses, under a name without a known extension; upper case is one. *)
Example inspect_example :
  let k := PublicKey (bs "ace_3.16") 1024 65537 12345 in
  public_fits k /\ ~ picturesque (p_authority k) /\ unsaid (bs "ace.BIKEY") /\ ~ In 47 (bs "ace.BIKEY") /\ inspect (bs "ace.BIKEY") (write_public k) = Shows (Key k) /\
  inspect (bs "ace.bikey") (write_public k) = Shows (Key k) /\ inspect (bs "ace.bisign") (write_public k) = Fails.
Proof.
  set (k := PublicKey (bs "ace_3.16") 1024 65537 12345). cbv zeta.
  assert (F : public_fits k). { split; [split; [vm_compute; intuition discriminate|vm_compute; reflexivity]|]. split; [vm_compute; reflexivity|]. split; vm_compute; reflexivity. }
  assert (NP : ~ picturesque (p_authority k)) by (intros (a & b & r & E); vm_compute in E; discriminate).
  assert (S : ~ In 47 (bs "ace.BIKEY")) by (vm_compute; intuition discriminate).
  assert (U : unsaid (bs "ace.BIKEY")).
  { intros e stem K B E. assert (X : extension (bs "ace.BIKEY") = e) by (eapply said_is; [exact S|exact K|exact B|exact E]). revert K. rewrite <- X. intros K.
    unfold known in K. apply in_map_iff in K as (x & E' & K). repeat (destruct K as [<-|K]; [vm_compute in E'; discriminate|]). destruct K. }
  split; [exact F|]. split; [exact NP|]. split; [exact U|]. split; [exact S|]. split; [now apply C106_public_key|]. split; [vm_compute; reflexivity|vm_compute; reflexivity].
Qed.

Print Assumptions C106_archive.
Print Assumptions C106_picture.
Print Assumptions C106_signature.
Print Assumptions C106_public_key.
Print Assumptions C106_extension.
Print Assumptions C106_text.
Print Assumptions C106_text_named_key.
Print Assumptions C106_private_key_refuted.
Print Assumptions C106_binary_refuted.
Print Assumptions C106_authority_refuted.
Print Assumptions C106_short_refuted.
