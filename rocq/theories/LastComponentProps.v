(** C97: CCLastComponent finds the last component of a path, except that of a
    path with separators at its end whose component is one byte at the
    beginning or comes after just one separator. *)
From Verif Require Import Base LastComponentModel LastComponentSpec LastComponentProofs.
Local Open Scope N_scope.

(** Every text but separators has a last component. *)
Theorem c97_every sep s : Forall (eq sep) s \/ exists pre comp post, is_last sep s pre comp post.
Proof. apply decompose. Qed.
Print Assumptions c97_every.

(** There is none in no text, the empty text and separators only. *)
Theorem c97_none sep s : sep <> 0 -> Forall (eq sep) s ->
  last_component (Some s) sep = None /\ last_component None sep = None.
Proof. intros Z F. split; [apply all_none; assumption|reflexivity]. Qed.
Print Assumptions c97_none.

(** The component found, whose length is given exactly if separators follow. *)
Theorem c97_found_partial sep s pre comp post : text s -> sep <> 0 -> is_last sep s pre comp post ->
  post = [] \/ (pre = [] /\ (2 <= length comp)%nat) \/ (2 <= length pre)%nat ->
  exists off len, last_component (Some s) sep = Some (off, len) /\ denotes s (off, len) comp /\
    off = Z.of_nat (length pre) /\ (len = 0%Z <-> post = []).
Proof.
  intros T Z (E & C & I & F & P) H.
  assert (LC : (0 < length comp)%nat) by (destruct comp; [contradiction|cbn; lia]).
  assert (K : skipn (length pre) s = comp ++ post).
  { rewrite E, skipn_app, Nat.sub_diag, skipn_all. reflexivity. }
  destruct post as [|x post].
  - rewrite app_nil_r in E, K. exists (Z.of_nat (length pre)), 0%Z. split; [|split].
    + rewrite E. apply no_post; auto. unfold text in T. rewrite E in T. apply Forall_app in T. apply T.
    + unfold denotes. cbn [Z.eqb]. rewrite Nat2Z.id, K. repeat split; lia.
    + split; [reflexivity|]. split; reflexivity.
  - exists (Z.of_nat (length pre)), (Z.of_nat (length comp)). split; [|split].
    + rewrite E, with_post by (auto; discriminate).
      destruct (Nat.eqb_spec (length pre) 0) as [E0|E0].
      * destruct (Nat.eqb_spec (length comp) 1) as [E1|E1]; [|rewrite E0; reflexivity].
        destruct H as [H|[(_ & H)|H]]; [discriminate H|lia|lia].
      * destruct (Nat.eqb_spec (length pre) 1) as [E1|E1]; [|reflexivity].
        destruct H as [H|[(H & _)|H]]; [discriminate H|subst pre; cbn in E0; lia|lia].
    + unfold denotes. destruct (Z.eqb_spec (Z.of_nat (length comp)) 0); [lia|]. rewrite !Nat2Z.id, K.
      rewrite firstn_app, Nat.sub_diag, firstn_all. cbn [firstn]. rewrite app_nil_r. repeat split; lia.
    + split; [reflexivity|]. split; [lia|discriminate].
Qed.
Print Assumptions c97_found_partial.

(** A component of one byte at the beginning, with separators after it, is not
    found; one after a single separator is given with that separator. *)
Theorem c97_refuted sep s pre comp post : text s -> sep <> 0 -> is_last sep s pre comp post -> post <> [] ->
  ((length pre = 0 -> length comp = 1 -> last_component (Some s) sep = None) /\
   (length pre = 1 -> exists a, last_component (Some s) sep = Some a /\ denotes s a (sep :: comp) /\ ~ denotes s a comp))%nat.
Proof.
  intros T Z (E & C & I & F & P) N. split.
  - intros L1 L2. rewrite E, with_post by auto. rewrite L1, L2. reflexivity.
  - intros L. destruct P as [->|(p & Ep)]; [discriminate L|].
    destruct p as [|y p]; [|rewrite Ep, app_length in L; cbn in L; lia].
    exists (0%Z, (Z.of_nat (length comp) + 1)%Z). split.
    + rewrite E, with_post by (auto; right; exists []; exact Ep). rewrite L. reflexivity.
    + assert (D : firstn (Z.to_nat (Z.of_nat (length comp) + 1)) (skipn (Z.to_nat 0) s) = sep :: comp).
      { change (Z.to_nat 0) with 0%nat. cbn [skipn].
        replace (Z.to_nat (Z.of_nat (length comp) + 1)) with (S (length comp)) by lia.
        rewrite E, Ep. cbn [app firstn]. rewrite firstn_app, Nat.sub_diag, firstn_all. cbn [firstn]. rewrite app_nil_r. reflexivity. }
      unfold denotes. destruct (Z.eqb_spec (Z.of_nat (length comp) + 1) 0); [lia|]. rewrite D.
      split; [repeat split; lia|]. intros (_ & _ & H). apply (f_equal (fun l => length l)) in H. cbn in H. lia.
Qed.
Print Assumptions c97_refuted.

(** "/ab//cd//", "ab/", "/cd"; and "a/" and "/ab/" *)
Example c97_ex :
  last_component (Some [47; 97; 98; 47; 47; 99; 100; 47; 47]) 47 = Some (5, 2)%Z /\
  is_last 47 [47; 97; 98; 47; 47; 99; 100; 47; 47] [47; 97; 98; 47; 47] [99; 100] [47; 47] /\
  last_component (Some [97; 98; 47]) 47 = Some (0, 2)%Z /\
  last_component (Some [47; 99; 100]) 47 = Some (1, 0)%Z /\
  last_component (Some [97; 47]) 47 = None /\
  last_component (Some [47; 97; 98; 47]) 47 = Some (0, 3)%Z.
Proof.
  split; [reflexivity|]. split; [|repeat split; reflexivity].
  split; [reflexivity|]. split; [discriminate|]. split; [intros [H|[H|[]]]; discriminate H|].
  split; [repeat constructor|]. right. exists [47; 97; 98; 47]. reflexivity.
Qed.
