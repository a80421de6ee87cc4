(** Lemmas for C94: every archive of a signed release has its signature. *)
From Coq Require Import String.
From Verif Require Import Base.Tactics Base.Bytes Base.Ascii Base.Sort Base.Text Bin.ExecModel Bin.ExecSpec Bin.ExecProps Bin.AddonModel Bin.AddonSpec Bin.AddonProps.
From Verif Require Import Bin.OutputModel Bin.OutputSpec Bin.OutputProofs Bin.OutputProps.
Local Open Scope N_scope.
Local Open Scope list_scope.

Section Q.
  Context {D R E C key : Type} (glob : bytes -> option (bytes -> bool)) (pr : project) (given : list bytes) (addons : list (addon D)).
  Context (pbo_of : inputs R -> addon D -> bytes + E) (version_of : inputs R -> bytes + E)
          (other : module -> stage -> inputs R -> inputs R * result E C)
          (au : bytes) (keygen : option bytes -> bytes -> key) (public : key -> bytes) (sign : key -> bytes -> bytes + E) (bad_pattern not_found : E)
          (severity_of : C -> severity).
  Notation has_error := (has_error severity_of).
  Notation release_ := (release_ glob pr (include_of given) addons pbo_of version_of other au keygen public sign bad_pattern not_found severity_of).
  Notation effect := (effect other).
  Notation went := (fold_left (fun i s => effect s i)).
  Lemma release_signs nr nb na ar (w w' : world R) codes : let x := release_command nr nb false na true ar in
    keeps other -> kept_well (from w) -> no_dots pr addons -> NoDup (map name addons) -> apart glob pr given other au x (from w) addons ->
    release_ nr nb false na true ar w = (w', Ok codes) -> ~ has_error codes ->
    exists iB iS v, arrives other x (from w) BuildPbos iB /\ arrives other x (from w) (Phase Sign PreRelease) iS /\ version_of iS = inl v /\
      forall a, In a addons -> exists b s, pbo_of iB a = inl b /\ sign (key_for pr au keygen v a) b = inl s.
  Proof.
    intros x K W Nd Nn Ap H Hn. unfold OutputModel.release_, run_command in H. apply C37_fail_stop in H as (did & H). fold x in H.
    change (runs severity_of (doing glob pr given pbo_of version_of other au keygen public sign bad_pattern not_found false addons) (steps x) (start false w) did w' (Ok codes)) in H.
    destruct (release_steps nr nb false na true ar) as (A & B & Cc & Dd & F & Q & QA & QB & QC & QD & QF). fold x in Q. change (signing false true) with [Phase Sign PreRelease] in Q. cbn [app] in Q.
    rewrite Q in H. set (i0 := from w) in *. set (iB := went A i0). set (iF := went B iB). set (iS := went Cc iF).
    assert (AB : arrives other x i0 BuildPbos iB) by (exists A; eexists; split; [exact Q|reflexivity]).
    assert (AF : arrives other x i0 (Phase Files PostBuild) iF).
    { exists (A ++ BuildPbos :: B). eexists. split; [rewrite Q, <- app_assoc; reflexivity|]. rewrite fold_left_app. reflexivity. }
    assert (AS : arrives other x i0 (Phase Sign PreRelease) iS).
    { exists (A ++ BuildPbos :: B ++ Phase Files PostBuild :: Cc). eexists. split; [rewrite Q, <- app_assoc; cbn [app]; rewrite <- app_assoc; reflexivity|].
      rewrite fold_left_app. cbn [fold_left]. rewrite fold_left_app. reflexivity. }
    apply runs_split in H as (w1 & w2 & c1 & c2 & c3 & R1 & N1 & S2 & _ & R3 & N3); [|exact Hn].
    apply quiet_runs in R1 as (F1 & O1 & _); [|exact QA|exact N1]. change (from (start false w)) with i0 in F1. fold iB in F1. change (out (start false w)) with (@nil (path * node)) in O1.
    change (build_step pr pbo_of version_of false addons w1 = (w2, Ok c2)) in S2. unfold build_step in S2. destruct (version_of (from w1)) as [v0|]; [|discriminate].
    apply build_all_ok in S2 as (F2 & _ & Lk2 & _ & Bs2 & Lo2); [|exact Nd|exact Nn]. rewrite F1 in F2, Bs2, Lo2. rewrite O1 in Lk2, Lo2.
    apply runs_split in R3 as (w3 & w4 & c4 & c5 & c6 & R3 & N4 & S4 & _ & R5 & N6); [|exact N3].
    apply quiet_runs in R3 as (F3 & O3 & _); [|exact QB|exact N4]. rewrite F2 in F3. fold iF in F3.
    change (copy_step glob (include_of given) bad_pattern w3 = (w4, Ok c5)) in S4.
    assert (WF : kept_well iF) by (apply went_kept; [exact K|]; apply went_kept; assumption).
    apply copy_step_ok in S4 as (F4 & _ & _ & _ & Lo4); [|rewrite F3; exact WF|intros p b _; apply through_file; intros q t I; rewrite O3 in I; now apply Lk2 in I].
    rewrite F3 in F4, Lo4. rewrite O3 in Lo4.
    apply runs_split in R5 as (w5 & w6 & c7 & c8 & c9 & R5 & N7 & S6 & _ & R7 & N9); [|exact N6].
    apply quiet_runs in R5 as (F5 & O5 & _); [|exact QC|exact N7]. rewrite F4 in F5. fold iS in F5.
    change (sign_step pr version_of au keygen public sign not_found addons w5 = (w6, Ok c8)) in S6. unfold sign_step in S6. destruct (version_of (from w5)) as [v|] eqn:V; [|discriminate].
    rewrite F5 in V. set (ck := [bs "keys"; get_authority au v None ++ bs ".bikey"]) in *.
    apply sign_all_ok in S6 as (_ & _ & _ & _ & Sg & _); [|exact Nd|exact Nn]. cbn [with_out out] in Sg. rewrite O5 in Sg.
    assert (CkT : forall a : addon D, target_pbo pr false a <> ck).
    { intros a X. apply (f_equal ending) in X. unfold ck in X. rewrite target_ending, (ending_app [bs "keys"] _ [46; 98; 105; 107; 101] 121 : ending [bs "keys"; get_authority au v None ++ bs ".bikey"] = 121) in X. discriminate. }
    exists iB, iS, v. split; [exact AB|]. split; [exact AS|]. split; [exact V|]. intros a I. destruct (Sg a I) as (b & s & Lb & Sb). rewrite look_put_other in Lb by apply CkT.
    exists b, s. split; [|exact Sb]. apply Lo4 in Lb as [(b' & Cb & _)|(_ & Lb)].
    { exfalso. apply (Ap iF _ b' AF Cb). left. exists a. split; [exact I|]. destruct Nd as (P & Fd). rewrite Forall_forall in Fd. apply pbo_place_iff; auto. }
    apply Lo2 in Lb as [(a' & b' & I' & T & B' & [= <-])|(_ & X)]; [|discriminate].
    assert (a = a') as <-; [|exact B']. destruct Nd as (P & Fd). rewrite Forall_forall in Fd. apply (in_name_eq addons a a' Nn I I'). apply target_inj in T; auto.
  Qed.
End Q.
