(** Proofs for C96. *)
From Verif Require Import Base PathModel PathSpec RenameModel.

Lemma in_filename_kind c : in_filename (fst c) = true <-> file_kind c.
Proof. unfold file_kind. destruct c as [[] n]; cbn; intuition discriminate. Qed.

Lemma print_app a b : print (a ++ b) = print a ++ print b.
Proof. unfold print. rewrite map_app, concat_app. reflexivity. Qed.

Lemma nth_last {A} (l : list A) a : nth_error (l ++ [a]) (length l) = Some a.
Proof. rewrite nth_error_app2, Nat.sub_diag by lia. reflexivity. Qed.

Lemma remove_last l c : changed (l ++ [c]) (RemoveAt (length l)) = Some l.
Proof.
  cbn [changed]. rewrite app_length. cbn [length]. destruct (Nat.ltb_spec (length l) (length l + 1)); [|lia].
  unfold remove_at. rewrite firstn_app, Nat.sub_diag, firstn_all, skipn_all2 by (rewrite app_length; cbn; lia).
  cbn [firstn]. rewrite !app_nil_r. reflexivity.
Qed.

Lemma set_last l c d : changed (l ++ [c]) (SetAt (length l) d) = Some (l ++ [d]).
Proof.
  cbn [changed]. rewrite app_length. cbn [length]. destruct (Nat.ltb_spec (length l) (length l + 1)); [|lia].
  f_equal. clear. induction l as [|a l IH]; cbn [app length upd]; [reflexivity|]. now rewrite IH.
Qed.

Lemma take_off_ok fs : forall ds, Forall file_kind fs -> Forall (fun c => ~ file_kind c) ds ->
  take_off (length (ds ++ fs)) (ds ++ fs) = Some ds.
Proof.
  induction fs as [|f fs IH] using rev_ind; intros ds F D.
  - rewrite app_nil_r. destruct ds as [|c ds _] using rev_ind; [reflexivity|].
    rewrite app_length. cbn [length]. rewrite Nat.add_1_r. cbn [take_off]. rewrite nth_last.
    apply Forall_app in D. destruct D as [_ D]. inversion D as [|? ? H _]; subst.
    destruct (in_filename (fst c)) eqn:E; [|reflexivity]. exfalso. apply H, in_filename_kind, E.
  - apply Forall_app in F. destruct F as [F F1]. inversion F1 as [|? ? H _]; subst.
    rewrite app_assoc, app_length. cbn [length]. rewrite Nat.add_1_r. cbn [take_off]. rewrite nth_last.
    apply in_filename_kind in H. rewrite H. rewrite remove_last. apply IH; assumption.
Qed.

Lemma append_all_ok cs : forall l, append_all l cs = Some (l ++ cs).
Proof.
  induction cs as [|c cs IH]; intros l; cbn [append_all]; [rewrite app_nil_r; reflexivity|].
  cbn [changed]. rewrite IH, <- app_assoc. reflexivity.
Qed.

Lemma renamed_file ds fs name r : Forall file_kind fs -> fs <> [] -> Forall (fun c => ~ file_kind c) ds ->
  convert name false = Some r -> renamed (ds ++ fs) name = Some (ds ++ r).
Proof.
  intros F N D C. unfold renamed.
  assert (I : is_file (from_components (ds ++ fs)) = true).
  { unfold is_file. cbn [from_components comps]. destruct fs as [|f fs _] using rev_ind; [contradiction|].
    rewrite app_assoc, rev_app_distr. cbn [rev app]. apply in_filename_kind.
    apply Forall_app in F. destruct F as [_ F]. inversion F; assumption. }
  rewrite I, take_off_ok by assumption. rewrite C. apply append_all_ok.
Qed.

Lemma renamed_directory ds c name : in_filename (fst c) = false ->
  renamed (ds ++ [c]) name = Some (ds ++ [(Directory, Some name)]).
Proof.
  intros H. unfold renamed. unfold is_file. cbn [from_components comps]. rewrite rev_app_distr. cbn [rev app].
  rewrite H, app_length. cbn [length]. rewrite Nat.add_1_r. apply set_last.
Qed.
