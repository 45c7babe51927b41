(** C57, C58: dictionaries. *)
From Coq Require Import Permutation.
From Verif Require Import Base HashMapModel HashMapSpec HashMapProofs HashMapStepProofs DictionaryModel DictionarySpec DictionaryProofs.

(** Whatever the load-factor test answers, a dictionary is an association list: every action returns what the list says
    and calls the destructors the list says, no program fails, and destroying the dictionary in the end calls the
    destructors for what is left, in the order the keys and the values are listed in. *)
Theorem c57_dictionary_partial : forall (K V : Type) (hash : K -> N) (eqk : K -> K -> bool) full s kd vd (p : list (action K V)),
  lawful hash eqk -> s <> BothBits -> (N.of_nat (length p) <= 2 ^ 33)%N ->
  exists d d' l rs evs, d_create s kd vd = Some d /\ acts hash eqk full d p = Some (d', rs, evs) /\ specs eqk kd vd [] p = (l, rs, evs) /\
    exists l', Permutation l l' /\ d_destroy hash eqk d' = Some (all_gone kd vd l') /\
      d_step hash eqk full d' DGetKeys = Some (d', RKeys (map fst l'), []) /\
      d_step hash eqk full d' DGetValues = Some (d', RValues (map (fun x => Some (snd x)) l'), []).
Proof.
  intros K V hash eqk full s kd vd p (H1 & H2 & H3 & H4) Hs Hp. set (N0 := 3 * length p + 3).
  assert (Small : (N.of_nat N0 <= 2 ^ 35)%N) by (unfold N0; lia).
  destruct (create_ok (V := V) hash eqk full N0 Small s kd vd Hs) as (d & st & E & <- & <- & R & L). exists d.
  destruct (acts_ok hash eqk full H1 H2 H3 H4 N0 Small p 0 d st [] R ltac:(unfold N0; lia) L) as (m' & rs & evs & st' & l & E' & S & R' & L').
  exists (on d m'), l, rs, evs. split; [exact E|]. split; [exact E'|]. split; [exact S|].
  exact (finish_ok hash eqk full H1 H2 H3 H4 N0 Small _ (on d m') st' l R' ltac:(unfold N0; lia) L').
Qed.
Print Assumptions c57_dictionary_partial.

(** With a value destructor, the values destroyed over the life of the dictionary are exactly the values stored, each once;
    with a key destructor, the keys destroyed are exactly the keys added, each once. *)
Theorem c57_destroyed_once_partial : forall (K V : Type) (hash : K -> N) (eqk : K -> K -> bool) full s kd vd (p : list (action K V)),
  lawful hash eqk -> s <> BothBits -> (N.of_nat (length p) <= 2 ^ 33)%N ->
  exists d d' rs evs evs', d_create s kd vd = Some d /\ acts hash eqk full d p = Some (d', rs, evs) /\ d_destroy hash eqk d' = Some evs' /\
    Permutation (values_destroyed (evs ++ evs')) (if vd then map (fun v => Some (Some v)) (values_stored eqk [] p) else []) /\
    Permutation (keys_destroyed (evs ++ evs')) (if kd then map Some (keys_added eqk [] p) else []).
Proof.
  intros K V hash eqk full s kd vd p Lw Hs Hp. destruct (c57_dictionary_partial K V hash eqk full s kd vd p Lw Hs Hp) as (d & d' & l & rs & evs & E & E' & Sp & l' & Pm & ED & _).
  exists d, d', rs, evs, (all_gone kd vd l'). split; [exact E|]. split; [exact E'|]. split; [exact ED|]. destruct Lw as (H1 & H2 & H3 & H4). split.
  - rewrite values_app. destruct vd.
    + rewrite values_all. pose proof (specs_values eqk H2 H3 kd p [] ltac:(constructor)) as P. rewrite Sp in P. cbn [fst snd map app] in P. eapply Permutation_trans; [|exact P]. apply Permutation_app_head, Permutation_map. now symmetry.
    + rewrite (no_values eqk kd p [] l rs evs Sp). cbn [app]. rewrite no_values_left. constructor.
  - rewrite keys_app. destruct kd.
    + rewrite keys_all. pose proof (specs_keys eqk H2 H3 vd p [] ltac:(constructor)) as P. rewrite Sp in P. cbn [fst snd map app] in P. eapply Permutation_trans; [|exact P]. apply Permutation_app_head, Permutation_map. now symmetry.
    + rewrite (no_keys eqk vd p [] l rs evs Sp). cbn [app]. rewrite no_keys_left. constructor.
Qed.
Print Assumptions c57_destroyed_once_partial.

(** The load-factor test of the code: count / buckets >= 0.75 *)
Definition at_three_quarters (c bc : nat) : bool := Nat.leb (3 * bc) (4 * c).

(** An entry made for a key (CCDictionaryEntryForKey) that is never given a value is counted as a value once the dictionary
    has grown: its entry is reported as initialised, and the value destructor is called on memory nobody wrote. *)
Theorem c57_unset_entry_refuted : exists (d d1 d2 : dict N N) rs,
  d_create Small false true = Some d /\
  d_run (fun k => k) N.eqb at_three_quarters d [DEntryForKey 5; DIsInitialized 3]%N = Some (d1, [REntry 3%N; RBool false], []) /\
  d_run (fun k => k) N.eqb at_three_quarters d1 [DSetValue 1 10; DSetValue 2 20; DSetValue 3 30; DFindKey 5; DIsInitialized 6]%N = Some (d2, rs, []) /\
  skipn 3 rs = [REntry 6%N; RBool true] /\
  d_destroy (fun k => k) N.eqb d2 = Some [DestroyValue (Some (Some 10%N)); DestroyValue (Some (Some 20%N)); DestroyValue (Some (Some 30%N)); DestroyValue (Some None)].
Proof.
  eexists _, _, _, _. split; [vm_compute; reflexivity|]. split; [vm_compute; reflexivity|]. split; [vm_compute; reflexivity|]. split; vm_compute; reflexivity.
Qed.
Print Assumptions c57_unset_entry_refuted.

(** An entry stays the entry of its key only as long as no insertion grows the dictionary: with insertions of other keys
    alone, the entry got for 5 comes to be the entry of 2, and setting it overwrites the value of 2. *)
Theorem c58_entries_refuted : exists (d d1 d2 d3 : dict N N) rs,
  d_create Small false false = Some d /\
  d_run (fun k => k) N.eqb at_three_quarters d [DSetValue 5 50; DFindKey 5; DGetKey 3]%N = Some (d1, [RUnit; REntry 3%N; RKey (Some 5%N)], []) /\
  d_run (fun k => k) N.eqb at_three_quarters d1 [DSetValue 2 20; DSetValue 1 10; DSetValue 3 30]%N = Some (d2, rs, []) /\
  d_run (fun k => k) N.eqb at_three_quarters d2 [DGetKey 3; DGetEntry 3; DSetEntry 3 51; DGetValue 5; DGetValue 2]%N =
    Some (d3, [RKey (Some 2%N); RValue (Some (Some 20%N)); RUnit; RValue (Some (Some 50%N)); RValue (Some (Some 51%N))], []).
Proof.
  eexists _, _, _, _, _. split; [vm_compute; reflexivity|]. split; [vm_compute; reflexivity|]. split; [vm_compute; reflexivity|]. vm_compute; reflexivity.
Qed.
Print Assumptions c58_entries_refuted.

(** Otherwise it does: through any program that neither grows the dictionary nor deletes the key. *)
Theorem c58_entries_partial : forall (K V : Type) (hash : K -> N) (eqk : K -> K -> bool) full s kd vd (p q : list (action K V)) k,
  lawful hash eqk -> s <> BothBits -> (N.of_nat (length p + length q) <= 2 ^ 33)%N ->
  exists d d1 rs evs e, d_create s kd vd = Some d /\ acts hash eqk full d p = Some (d1, rs, evs) /\ d_find_key hash eqk d1 k = Some e /\
    (e <> 0%N -> keeps hash eqk full d1 k q ->
     exists d2 rs' evs' k0, acts hash eqk full d1 q = Some (d2, rs', evs') /\ d_find_key hash eqk d2 k = Some e /\
       d_get_key hash eqk d1 e = Some (Some k0) /\ d_get_key hash eqk d2 e = Some (Some k0) /\ eqk k k0 = true).
Proof.
  intros K V hash eqk full s kd vd p q k (H1 & H2 & H3 & H4) Hs Hp. set (N0 := 3 * (length p + length q) + 3).
  assert (Small : (N.of_nat N0 <= 2 ^ 35)%N) by (unfold N0; lia).
  destruct (create_ok (V := V) hash eqk full N0 Small s kd vd Hs) as (d & st & E & <- & <- & R & L). exists d.
  destruct (acts_ok hash eqk full H1 H2 H3 H4 N0 Small p 0 d st [] R ltac:(unfold N0; lia) L) as (m1 & rs & evs & st1 & l & E1 & _ & R1 & L1).
  set (d1 := on d m1). change m1 with (dmap d1) in R1. destruct (find_ok hash eqk H1 H2 H3 H4 N0 _ d1 st1 R1 ltac:(unfold N0; lia) k) as (e & F & C). exists d1, rs, evs, e. split; [exact E|]. split; [exact E1|]. split; [exact F|]. intros Nz Kp.
  destruct C as [(_ & C)|(k0 & c & _ & P & Ek)]; [contradiction|].
  destruct (keeps_ok hash eqk full H1 H2 H3 H4 N0 Small q k _ d1 st1 l e k0 c R1 ltac:(unfold N0; lia) L1 Kp P Ek) as (m2 & rs' & evs' & st2 & l2 & c2 & E2 & R2 & L2 & P2).
  exists (on d1 m2), rs', evs', k0. split; [exact E2|]. change m2 with (dmap (on d1 m2)) in R2. split; [|split; [|split; [|exact Ek]]].
  - apply (find_is hash eqk full H1 H2 H3 H4 N0 Small _ (on d1 m2) st2 k e k0 c2 R2); auto. unfold N0; lia.
  - rewrite (get_key_of hash eqk full H1 H2 H3 H4 N0 Small _ d1 st1 R1) by (try (right; congruence); unfold N0; lia). now rewrite P.
  - rewrite (get_key_of hash eqk full H1 H2 H3 H4 N0 Small _ (on d1 m2) st2 R2) by (try (right; congruence); unfold N0; lia). now rewrite P2.
Qed.
Print Assumptions c58_entries_partial.

(** Non-vacuity: a program that grows the dictionary, with a replaced, a deleted and a changed value. *)
Definition c57_p : list (action N N) :=
  [Put 1 10; Store 2 20; Put 3 30; Put 1 11; Store 5 50; Delete 2; Change 9 90; Change 3 31; Put 8 80; Put 13 130; Has 8; Has 2; KeyAt 13; ReadAt 1; Read 3; Size]%N.

Example c57_run : exists d d', d_create (K := N) (V := N) Small true true = Some d /\
  acts (fun k => k) N.eqb at_three_quarters d c57_p =
    Some (d', [RUnit; RUnit; RUnit; RUnit; RUnit; RUnit; RUnit; RUnit; RUnit; RUnit; RBool true; RBool false; RKey (Some 13%N); RValue (Some (Some 11%N)); RValue (Some (Some 31%N)); RCount 5],
          [DestroyValue (Some (Some 10%N)); DestroyKey (Some 2%N); DestroyValue (Some (Some 20%N)); DestroyValue (Some (Some 30%N))]) /\
  bucketCount (dmap d') = 6 /\ option_map (@length _) (d_destroy (fun k => k) N.eqb d') = Some 10.
Proof. eexists _, _. split; [vm_compute; reflexivity|]. split; [vm_compute; reflexivity|]. split; vm_compute; reflexivity. Qed.

Example c57_lists : values_stored N.eqb [] c57_p = [10; 20; 30; 11; 50; 31; 80; 130]%N /\ keys_added N.eqb [] c57_p = [1; 2; 3; 5; 8; 13]%N.
Proof. split; vm_compute; reflexivity. Qed.

(** A program that keeps the entries: no growth while below three quarters. *)
Example c58_keeps : exists d d1 rs evs, d_create (K := N) (V := N) Medium true true = Some d /\ acts (fun k => k) N.eqb at_three_quarters d [Put 5 50]%N = Some (d1, rs, evs) /\
  d_find_key (fun k => k) N.eqb d1 5%N = Some 6%N /\ keeps (fun k => k) N.eqb at_three_quarters d1 5%N [Put 123 1; Store 7 70; Delete 123; Put 5 51]%N.
Proof. eexists _, _, _, _. split; [vm_compute; reflexivity|]. split; [vm_compute; reflexivity|]. split; [vm_compute; reflexivity|]. vm_compute. auto 20. Qed.

(** A hint with both size bits set asks for no buckets, which the hash map's assertion rejects. *)
Example c57_both_bits : forall kd vd, d_create (K := N) (V := N) BothBits kd vd = None.
Proof. reflexivity. Qed.
