From Verif Require Import Base ReflectStreamModel ReflectStreamProofs ReflectIntegerModel ReflectIntegerSpec ReflectIntegerProofs ReflectValueModel ReflectValueSpec ReflectValueProofs ReflectTypeModel ReflectTypeSpec.
Local Open Scope N_scope.

(** ** Sizes and lookup IDs *)
Lemma size_trips n : n < 2 ^ 56 -> exists a, put_size n = Some a /\ forall rest, get_size (a ++ rest) = Some (n, rest).
Proof.
  intros H. pose proof (to_bytes_length 8 n) as L. pose proof (to_bytes_bytes 8 n) as B. pose proof (of_to_bytes 8 n) as O. change (8 * N.of_nat 8) with 64 in O. rewrite N.mod_small in O by lia.
  assert (Nv : number false Native (to_bytes 8 n) = Z.of_N n) by (rewrite number_is; unfold lowest_first, is_big; cbn [andb]; cbn zeta; now rewrite magnitude_of, O).
  destruct (unsigned_trip Native Native (to_bytes 8 n) 8 B ltac:(lia) ltac:(lia)) as (out & E & Q).
  - rewrite Nv. cbn [fits]. change (2 ^ (8 * Z.of_nat 8))%Z with (2 ^ 64)%Z. lia.
  - rewrite Nv. cbn [kept]. lia.
  - exists out. split; [exact E|]. intros rest. destruct (Q rest) as (bs2 & E2 & B2 & L2 & N2). unfold get_size. rewrite E2. rewrite (number_inj false Native bs2 (to_bytes 8 n)); auto; [now rewrite O|lia].
Qed.

Lemma below n (P : N -> bool) : forallb (fun i => P (N.of_nat i)) (seq 0 (N.to_nat n)) = true -> forall i, i < n -> P i = true.
Proof. intros H i Hi. rewrite forallb_forall in H. rewrite <- (N2Nat.id i). apply H, in_seq. lia. Qed.

Lemma lookup_trips id : id <= 154 -> exists b, lookup_byte id = Some b /\ lookup_id b = Some id.
Proof.
  intros H. assert (C : match lookup_byte id with Some b => match lookup_id b with Some id' => id' =? id | None => false end | None => false end = true).
  { apply (below 155 (fun id => match lookup_byte id with Some b => match lookup_id b with Some id' => id' =? id | None => false end | None => false end)); [vm_compute; reflexivity|lia]. }
  destruct (lookup_byte id) as [b|]; [|discriminate]. exists b. split; [reflexivity|]. destruct (lookup_id b) as [id'|]; [|discriminate]. f_equal. now apply N.eqb_eq.
Qed.

Lemma lookup_none id : 154 < id -> lookup_byte id = None.
Proof. intros H. unfold lookup_byte. repeat match goal with |- context [id <=? ?k] => replace (id <=? k) with false by lia end. reflexivity. Qed.

(** ** Positions *)
Lemma index_nth t : forall l i, index_of t l = Some i -> nth_error l i = Some t.
Proof.
  induction l as [|x l IH]; intros i H; [discriminate|]. cbn [index_of] in H. destruct (Nat.eqb_spec x t); [injection H as <-; now subst|]. destruct (index_of t l) as [j|]; [|discriminate]. injection H as <-. cbn. now apply IH.
Qed.

Lemma index_in t l : In t l -> exists i, index_of t l = Some i.
Proof.
  induction l as [|x l IH]; intros H; [contradiction|]. cbn [index_of]. destruct (Nat.eqb_spec x t); [eauto|]. destruct H as [H|H]; [contradiction|]. destruct (IH H) as [i ->]. eauto.
Qed.

Lemma index_none t l : ~ In t l -> index_of t l = None.
Proof. intros H. destruct (index_of t l) as [i|] eqn:E; [|reflexivity]. exfalso. apply H. eapply nth_error_In, index_nth, E. Qed.

Lemma index_app t l l' : In t l -> index_of t (l ++ l') = index_of t l.
Proof.
  induction l as [|x l IH]; intros H; [contradiction|]. cbn [app index_of]. destruct (Nat.eqb_spec x t); [reflexivity|]. destruct H as [H|H]; [contradiction|]. now rewrite IH.
Qed.

Lemma index_new t l l' : ~ In t l -> index_of t (l ++ t :: l') = Some (length l).
Proof.
  induction l as [|x l IH]; intros H; cbn [app index_of]; [now rewrite Nat.eqb_refl|]. destruct (Nat.eqb_spec x t); [exfalso; apply H; now left|]. rewrite IH; [reflexivity|]. intros H'. apply H. now right.
Qed.

Lemma Forall2_mono {A B} (P Q : A -> B -> Prop) a b : (forall x y, P x y -> Q x y) -> Forall2 P a b -> Forall2 Q a b.
Proof. induction 2; auto. Qed.

Section Trip.
Variables (types : tid -> type) (lookup : option (tid -> N)) (put_destructor : N -> list N).
Variables (base : nat) (find : option (N -> option tid)) (get_destructor : list N -> option (N * list N)).
Variable all : list tid.
Hypothesis destructors : forall d rest, get_destructor (put_destructor d ++ rest) = Some (d, rest).
Hypothesis Hagree : agree lookup find.
Hypothesis Hclosed : closed types (looks_up lookup) all.
Hypothesis Hsize : N.of_nat (length all) < 2 ^ 56.

Definition known (t : tid) : bool := match lookup with Some f => f t <=? 154 | None => false end.

Lemma known_is t : known t = true <-> looks_up lookup t.
Proof.
  clear. unfold known, looks_up. destruct lookup as [f|]; split.
  - intros H. exists f. split; [reflexivity|lia].
  - intros (f' & E & H). injection E as <-. lia.
  - discriminate.
  - intros (f' & E & _). discriminate.
Qed.

(** The types of [seen] that are made anew, in order, and the address a type has in the reader *)
Definition fresh (seen : list tid) : list tid := filter (fun t => negb (known t)) seen.
Definition address (seen : list tid) (t : tid) : tid := if known t then t else match index_of t (fresh seen) with Some i => (base + i)%nat | None => 0%nat end.
Definition addresses (seen : list tid) : list tid := map (address seen) seen.
Definition related (seen : list tid) (a t : tid) : Prop := In t seen /\ a = address seen t.

Lemma fresh_app a b : fresh (a ++ b) = fresh a ++ fresh b.
Proof. apply filter_app. Qed.

Lemma in_fresh t seen : In t (fresh seen) <-> In t seen /\ known t = false.
Proof. unfold fresh. rewrite filter_In. destruct (known t); intuition discriminate. Qed.

Lemma address_app seen ts t : In t seen -> address (seen ++ ts) t = address seen t.
Proof.
  intros H. unfold address. destruct (known t) eqn:K; [reflexivity|]. rewrite fresh_app, index_app; [reflexivity|]. now apply in_fresh.
Qed.

Lemma addresses_app seen ts : addresses (seen ++ ts) = addresses seen ++ map (address (seen ++ ts)) ts.
Proof. unfold addresses. rewrite map_app. f_equal. apply map_ext_in. intros t H. now apply address_app. Qed.

Lemma addresses_length seen : length (addresses seen) = length seen.
Proof. apply map_length. Qed.

Lemma addresses_nth seen i : nth_error (addresses seen) i = option_map (address seen) (nth_error seen i).
Proof. apply nth_error_map. Qed.

Lemma related_app seen ts a t : related seen a t -> related (seen ++ ts) a t.
Proof. intros [H ->]. split; [apply in_or_app; now left|now rewrite address_app]. Qed.

Lemma same_mono (R R' : tid -> tid -> Prop) a b : (forall x y, R x y -> R' x y) -> same R a b -> same R' a b.
Proof.
  intros M. destruct a, b; cbn [same]; intuition auto. eapply Forall2_mono; [|eassumption]. cbn. intuition auto.
Qed.

(** The type made for [t] is there. *)
Definition complete (made : list type) (seen : list tid) (t : tid) : Prop :=
  exists i d, index_of t (fresh seen) = Some i /\ nth_error made i = Some d /\ same (related seen) d (types t).

Lemma complete_app made h seen ts t : complete made seen t -> complete (made ++ h) (seen ++ ts) t.
Proof.
  intros (i & d & I & D & E). exists i, d. rewrite fresh_app, index_app by (eapply nth_error_In, index_nth, I). split; [exact I|]. split; [rewrite nth_error_app1; [exact D|apply nth_error_Some; congruence]|]. eapply same_mono; [|exact E]. intros x y. apply related_app.
Qed.

(** How many types of [all] are not in [seen] *)
Definition left (seen : list tid) : nat := length (filter (fun t => negb (existsb (Nat.eqb t) seen)) all).

Lemma filter_le {A} (f g : A -> bool) l : (forall x, In x l -> f x = true -> g x = true) -> (length (filter f l) <= length (filter g l))%nat.
Proof.
  induction l as [|x l IH]; intros H; cbn [filter length]; [lia|]. specialize (IH (fun y Hy => H y (or_intror Hy))). specialize (H x (or_introl eq_refl)). destruct (f x); [rewrite (H eq_refl); cbn [length]; lia|]. destruct (g x); cbn [length]; lia.
Qed.

Lemma filter_lt {A} (f g : A -> bool) l x : (forall x, In x l -> f x = true -> g x = true) -> In x l -> f x = false -> g x = true -> (length (filter f l) < length (filter g l))%nat.
Proof.
  induction l as [|y l IH]; intros H I Fx Gx; [contradiction|]. cbn [filter]. destruct I as [->|I].
  - rewrite Fx, Gx. cbn [length]. pose proof (filter_le f g l (fun y Hy => H y (or_intror Hy))). lia.
  - specialize (IH (fun y Hy => H y (or_intror Hy)) I Fx Gx). specialize (H y (or_introl eq_refl)). destruct (f y); [rewrite (H eq_refl); cbn [length]; lia|]. destruct (g y); cbn [length]; lia.
Qed.

Lemma existsb_in t l : existsb (Nat.eqb t) l = true <-> In t l.
Proof. rewrite existsb_exists. split; [intros (x & I & E); apply Nat.eqb_eq in E; now subst|intros I; exists t; split; [exact I|apply Nat.eqb_refl]]. Qed.

Lemma left_app seen ts : (left (seen ++ ts) <= left seen)%nat.
Proof. apply filter_le. intros x _ E. rewrite existsb_app in E. apply negb_true_iff, orb_false_iff in E. now apply negb_true_iff. Qed.

Lemma left_new seen t : In t all -> ~ In t seen -> (left (seen ++ [t]) < left seen)%nat.
Proof.
  intros I NI. apply (filter_lt _ _ all t); [|exact I| |].
  - intros x _ E. rewrite existsb_app in E. apply negb_true_iff, orb_false_iff in E. now apply negb_true_iff.
  - rewrite existsb_app. cbn [existsb]. rewrite Nat.eqb_refl. cbn. now rewrite orb_true_r.
  - destruct (existsb (Nat.eqb t) seen) eqn:E; [|reflexivity]. apply existsb_in in E. contradiction.
Qed.

(** What writing and reading do when the types [seen] have indexes *)
Definition good (seen : list tid) : Prop := NoDup seen /\ incl seen all.
Definition trips {A} (seen : list tid) (p : option (list N * list tid)) (g : reading -> option (A * reading)) (Q : list tid -> A -> Prop) : Prop :=
  exists out ts, p = Some (out, seen ++ ts) /\ good (seen ++ ts) /\
  forall made rest, length made = length (fresh seen) -> exists x h,
    g (mkReading made (addresses seen) (out ++ rest)) = Some (x, mkReading (made ++ h) (addresses (seen ++ ts)) rest) /\ Q (seen ++ ts) x /\
    length (made ++ h) = length (fresh (seen ++ ts)) /\ forall t, In t ts -> known t = false -> complete (made ++ h) (seen ++ ts) t.

Lemma good_length seen : good seen -> N.of_nat (length seen) < 2 ^ 56.
Proof. intros [D I]. pose proof (NoDup_incl_length D I). lia. Qed.

Definition at_address (t : tid) (seen : list tid) (a : tid) : Prop := related seen a t.

Section Step.
Variable fuel : nat.
Hypothesis IH : forall seen t, good seen -> In t all -> ~ In t seen -> (left seen <= fuel)%nat -> trips seen (put_type types lookup put_destructor fuel t seen) (get_type base find get_destructor fuel) (at_address t).

Lemma reference_trips seen t : good seen -> In t all -> (left seen <= fuel)%nat ->
  trips seen (put_reference (put_type types lookup put_destructor fuel) t seen) (get_reference (get_type base find get_destructor fuel)) (at_address t).
Proof.
  intros G I L. pose proof (good_length seen G) as GL. unfold put_reference, get_reference. destruct (index_of t seen) as [i|] eqn:E.
  - assert (Hi : (i < length seen)%nat) by (apply nth_error_Some; rewrite (index_nth t seen i E); discriminate). destruct (size_trips (N.of_nat i) ltac:(lia)) as (a & P & Q). rewrite P. exists a, []. rewrite !app_nil_r. split; [reflexivity|]. split; [exact G|].
    intros made rest Hm. exists (address seen t), []. rewrite !app_nil_r. unfold read_size. cbn [stream found ReflectTypeModel.made]. rewrite Q. cbn [found]. rewrite addresses_length. replace (N.of_nat i <? N.of_nat (length seen)) with true by lia. rewrite Nat2N.id. rewrite addresses_nth, (index_nth t seen i E). cbn [option_map].
    split; [reflexivity|]. split; [split; [eapply nth_error_In, index_nth, E|reflexivity]|]. split; [exact Hm|]. intros t' [].
  - assert (NI : ~ In t seen) by (intros H; destruct (index_in t seen H) as [i Hi]; congruence). destruct (size_trips (N.of_nat (length seen)) GL) as (a & P & Q). rewrite P. destruct (IH seen t G I NI L) as (out & ts & E' & G' & R). rewrite E'. exists (a ++ out), ts. split; [reflexivity|]. split; [exact G'|].
    intros made rest Hm. destruct (R made rest Hm) as (x & h & Eg & Rest). exists x, h. split; [|exact Rest]. unfold read_size. cbn [stream found ReflectTypeModel.made]. rewrite <- app_assoc, Q. cbn [stream found ReflectTypeModel.made]. rewrite addresses_length. replace (N.of_nat (length seen) <? N.of_nat (length seen)) with false by lia. exact Eg.
Qed.

Lemma fields_trip fields : forall seen, good seen -> (forall f, In f fields -> In (field_type f) all /\ offset f < 2 ^ 56) -> (left seen <= fuel)%nat ->
  trips seen (put_fields (put_type types lookup put_destructor fuel) fields seen) (get_fields (get_type base find get_destructor fuel) (length fields))
    (fun seen fields' => Forall2 (fun f f' => offset f = offset f' /\ related seen (field_type f) (field_type f')) fields' fields).
Proof.
  induction fields as [|f fields IHf]; intros seen G F L; cbn [put_fields get_fields length].
  - exists [], []. rewrite !app_nil_r. split; [reflexivity|]. split; [exact G|]. intros made rest Hm. exists [], []. rewrite !app_nil_r. split; [reflexivity|]. split; [constructor|]. split; [exact Hm|]. intros t [].
  - destruct (F f (or_introl eq_refl)) as [If Of]. destruct (size_trips (offset f) Of) as (a & P & Q). rewrite P. destruct (reference_trips seen (field_type f) G If L) as (b & ts & E & G' & R). rewrite E.
    destruct (IHf (seen ++ ts) G' (fun f' Hf => F f' (or_intror Hf)) ltac:(pose proof (left_app seen ts); lia)) as (c & ts' & E' & G'' & R'). rewrite E'. exists (a ++ b ++ c), (ts ++ ts'). rewrite !app_assoc. split; [reflexivity|]. split; [exact G''|].
    intros made rest Hm. destruct (R made (c ++ rest) Hm) as (x & h & Eg & Qx & Hl & C). destruct (R' (made ++ h) rest Hl) as (fs & h' & Eg' & Qf & Hl' & C'). exists (mkField 0 (offset f) x :: fs), (h ++ h').
    unfold read_size. cbn [stream ReflectTypeModel.made found]. rewrite <- !app_assoc, Q. cbn [stream ReflectTypeModel.made found]. rewrite Eg, Eg'. rewrite <- !app_assoc. split; [reflexivity|]. rewrite <- !app_assoc in *. split.
    + constructor; [|exact Qf]. cbn [offset field_type]. split; [reflexivity|]. rewrite app_assoc. apply related_app. exact Qx.
    + split; [exact Hl'|]. intros t I K. apply in_app_or in I. destruct I as [I|I]; [|now apply C']. rewrite !app_assoc. apply complete_app. now apply C.
Qed.
End Step.

(** The type [t] is made: its memory is taken before that of the types it refers to, and written after. *)
Lemma finish seen t ts made x h d : good (seen ++ [t] ++ ts) -> known t = false -> length made = length (fresh seen) ->
  length ((made ++ [x]) ++ h) = length (fresh ((seen ++ [t]) ++ ts)) -> (forall t', In t' ts -> known t' = false -> complete ((made ++ [x]) ++ h) ((seen ++ [t]) ++ ts) t') ->
  same (related (seen ++ [t] ++ ts)) d (types t) ->
  upd ((made ++ [x]) ++ h) (base + length made - base) d = made ++ ([d] ++ h) /\ at_address t (seen ++ [t] ++ ts) (base + length made)%nat /\
  length (made ++ [d] ++ h) = length (fresh (seen ++ [t] ++ ts)) /\ forall t', In t' ([t] ++ ts) -> known t' = false -> complete (made ++ [d] ++ h) (seen ++ [t] ++ ts) t'.
Proof.
  intros [D _] K Hm Hl C Sd. rewrite <- !app_assoc in *. assert (Nt : ~ In t seen) by (apply NoDup_remove_2 in D; intros I; apply D, in_or_app; now left).
  assert (It : index_of t (fresh (seen ++ [t] ++ ts)) = Some (length made)).
  { rewrite fresh_app. cbn [app fresh filter]. rewrite K. cbn [negb]. rewrite Hm. apply index_new. rewrite in_fresh. tauto. }
  split.
  { replace (base + length made - base)%nat with (length made) by lia. cbn [app]. clear. induction made as [|y made IHm]; cbn; [reflexivity|]. now rewrite IHm. }
  split; [split; [apply in_or_app; right; now left|unfold address; now rewrite K, It]|].
  split; [rewrite !app_length in *; cbn [length] in *; lia|].
  intros t' I Kt'. destruct I as [<-|I].
  - exists (length made), d. split; [exact It|]. split; [rewrite nth_error_app2, Nat.sub_diag by lia; reflexivity|exact Sd].
  - destruct (C t' I Kt') as (i & d' & Ii & Di & Si). exists i, d'. split; [exact Ii|]. split; [|exact Si].
    assert (i <> length made) by (intros ->; apply index_nth in It, Ii; rewrite It in Ii; injection Ii as ->; apply NoDup_remove_2 in D; apply D, in_or_app; now right).
    destruct (Nat.lt_ge_cases i (length made)); [rewrite nth_error_app1 in * by lia; exact Di|]. rewrite nth_error_app2 in * by lia. destruct (i - length made)%nat eqn:Z; [lia|]. exact Di.
Qed.

Lemma plain {A} b (X : (N -> option tid) -> N -> A) (Y : A) : lookup_id b = None -> (match find, (let? _ := find in lookup_id b) with Some f, Some id => X f id | _, _ => Y end) = Y.
Proof. intros ->. destruct find; reflexivity. Qed.

Lemma good_new seen t : good seen -> In t all -> ~ In t seen -> good (seen ++ [t]).
Proof.
  intros [D I] It Nt. split.
  - apply NoDup_rev in D. rewrite <- (rev_involutive (seen ++ [t])). apply NoDup_rev. rewrite rev_app_distr. cbn. constructor; [now rewrite <- in_rev|exact D].
  - intros x Hx. apply in_app_or in Hx. destruct Hx as [Hx|[<-|[]]]; auto.
Qed.

Lemma addresses_new seen t : known t = false -> ~ In t seen -> addresses (seen ++ [t]) = addresses seen ++ [(base + length (fresh seen))%nat].
Proof.
  intros K Nt. rewrite addresses_app. cbn [map]. do 2 f_equal. unfold address. rewrite K, fresh_app. cbn [fresh filter]. rewrite K. cbn [negb]. change (index_of t (fresh seen ++ [t])) with (index_of t (fresh seen ++ t :: [])). rewrite index_new; [reflexivity|]. rewrite in_fresh. tauto.
Qed.

Lemma fresh_new seen t : known t = false -> length (fresh (seen ++ [t])) = S (length (fresh seen)).
Proof. intros K. rewrite fresh_app, app_length. cbn [fresh filter]. rewrite K. cbn. lia. Qed.

Ltac top := match goal with |- context [?b / 16] => let v := eval vm_compute in (b / 16) in change (b / 16) with v end; cbv iota.
Ltac reads := cbn [stream found ReflectTypeModel.made allocate store fst snd].

Lemma type_trips : forall fuel seen t, good seen -> In t all -> ~ In t seen -> (left seen <= fuel)%nat ->
  trips seen (put_type types lookup put_destructor fuel t seen) (get_type base find get_destructor fuel) (at_address t).
Proof.
  induction fuel as [|fuel IH]; intros seen t G I NI L; [pose proof (left_new seen t I NI); lia|].
  assert (G1 : good (seen ++ [t])) by now apply good_new. assert (L1 : (left (seen ++ [t]) <= fuel)%nat) by (pose proof (left_new seen t I NI); lia).
  cbn [put_type]. destruct (known t) eqn:K.
  - pose proof K as K0. unfold known in K0. pose proof Hagree as AG. unfold agree in AG. destruct lookup as [f|] eqn:El; [|discriminate]. destruct find as [g|] eqn:Ef; [|specialize (AG t); lia]. destruct (lookup_trips (f t) ltac:(lia)) as (b & P & Q). rewrite P. exists [b], [t]. split; [reflexivity|]. split; [exact G1|].
    intros made rest Hm. exists t, []. cbn [get_type stream app]. rewrite Q, (AG t ltac:(lia)). reads. rewrite app_nil_r. split.
    + do 3 f_equal. rewrite addresses_app. cbn [map]. do 2 f_equal. unfold address. now rewrite K.
    + split; [split; [apply in_or_app; right; now left|unfold address; now rewrite K]|]. split.
      * rewrite fresh_app. cbn [fresh filter]. rewrite K. cbn [negb]. now rewrite app_nil_r.
      * intros t' [<-|[]] K'. congruence.
  - assert (NL : ~ looks_up lookup t) by (rewrite <- known_is; congruence). destruct (Hclosed t I) as [C|[W C]]; [contradiction|].
    replace (let? f := lookup in lookup_byte (f t)) with (@None N) by (unfold known in K; destruct lookup; [symmetry; apply lookup_none; lia|reflexivity]).
    assert (FIN : forall made, length made = length (fresh seen) -> length (made ++ [TFloat 0 Native]) = length (fresh (seen ++ [t]))) by (intros made Hm; rewrite app_length, fresh_new by exact K; cbn; lia).
    assert (ADR : forall made : list type, length made = length (fresh seen) -> addresses seen ++ [(base + length made)%nat] = addresses (seen ++ [t])) by (intros made Hm; rewrite addresses_new by assumption; now rewrite Hm).
    destruct (types t) as [t'' o d|size e signed fixed|size e|size fields|t'' count|t'' v|t'' count] eqn:Et; cbn [writable refers] in W, C.
    + destruct (reference_trips fuel IH (seen ++ [t]) t'' G1 (C _ (or_introl eq_refl)) L1) as (a & ts & E & G2 & R). rewrite E. exists (4 + ownership_code o :: a ++ put_destructor d), ([t] ++ ts). rewrite (app_assoc seen [t] ts). split; [reflexivity|]. split; [exact G2|].
      intros made rest Hm. destruct (R (made ++ [TFloat 0 Native]) (put_destructor d ++ rest) (FIN made Hm)) as (x & h & Eg & Qx & Hl & Cm).
      destruct (finish seen t ts made (TFloat 0 Native) h (TPointer x o d)) as (U & A & Hl' & Cm'); try assumption; try (now rewrite app_assoc); [rewrite Et; cbn [same]; rewrite (app_assoc seen [t] ts); auto|].
      exists (base + length made)%nat, ([TPointer x o d] ++ h). cbn [get_type stream app]. rewrite plain by (destruct o; reflexivity). replace ((4 + ownership_code o) / 16) with 0 by (destruct o; reflexivity). reads.
      replace (ownership_of (N.land (4 + ownership_code o) 3)) with (Some o) by (destruct o; reflexivity). rewrite ADR by exact Hm. rewrite <- app_assoc, Eg. replace (N.land (4 + ownership_code o) 4 =? 0) with false by (destruct o; reflexivity). reads. rewrite destructors. unfold store. reads.
      rewrite (app_assoc seen [t] ts) in A, Hl', Cm'. rewrite U. auto.
    + destruct (size_trips size W) as (a & P & Q). rewrite P. exists ((16 + (if signed then 8 else 0) + (if fixed then 4 else 0) + endian_code e) :: a), ([t] ++ []). split; [reflexivity|]. split; [exact G1|].
      intros made rest Hm. destruct (finish seen t [] made (TFloat 0 Native) [] (TInteger size e signed fixed)) as (U & A & Hl' & Cm'); try assumption; try (rewrite !app_nil_r; now apply FIN); [intros t' []|rewrite Et; cbn [same]; auto|].
      exists (base + length made)%nat, ([TInteger size e signed fixed] ++ []). cbn [get_type stream app]. rewrite plain by (destruct signed, fixed, e; reflexivity). replace ((16 + (if signed then 8 else 0) + (if fixed then 4 else 0) + endian_code e) / 16) with 1 by (destruct signed, fixed, e; reflexivity). reads.
      replace (endian_of (N.land (16 + (if signed then 8 else 0) + (if fixed then 4 else 0) + endian_code e) 3)) with (Some e) by (destruct signed, fixed, e; reflexivity). unfold read_size. reads. rewrite Q. reads.
      replace (negb (N.land (16 + (if signed then 8 else 0) + (if fixed then 4 else 0) + endian_code e) 8 =? 0)) with signed by (destruct signed, fixed, e; reflexivity). replace (negb (N.land (16 + (if signed then 8 else 0) + (if fixed then 4 else 0) + endian_code e) 4 =? 0)) with fixed by (destruct signed, fixed, e; reflexivity).
      rewrite app_nil_r in U. unfold store. reads. rewrite U, ADR by exact Hm. auto.
    + destruct (size_trips size W) as (a & P & Q). rewrite P. exists (32 + endian_code e :: a), ([t] ++ []). split; [reflexivity|]. split; [exact G1|].
      intros made rest Hm. destruct (finish seen t [] made (TFloat 0 Native) [] (TFloat size e)) as (U & A & Hl' & Cm'); try assumption; try (rewrite !app_nil_r; now apply FIN); [intros t' []|rewrite Et; cbn [same]; auto|].
      exists (base + length made)%nat, ([TFloat size e] ++ []). cbn [get_type stream app]. rewrite plain by (destruct e; reflexivity). replace ((32 + endian_code e) / 16) with 2 by (destruct e; reflexivity). reads.
      replace (endian_of (N.land (32 + endian_code e) 3)) with (Some e) by (destruct e; reflexivity). unfold read_size. reads. rewrite Q. reads.
      rewrite app_nil_r in U. unfold store. reads. rewrite U, ADR by exact Hm. auto.
    + destruct W as (W & Wn & Wf). destruct (size_trips size W) as (a & P & Q). rewrite P. destruct (size_trips _ Wn) as (b & Pb & Qb). rewrite Pb.
      destruct (fields_trip fuel IH fields (seen ++ [t]) G1) as (c & ts & E & G2 & R); [intros f If; rewrite Forall_forall in Wf; split; [apply C, in_map, If|now apply Wf]|exact L1|]. rewrite E. exists (48 :: a ++ b ++ c), ([t] ++ ts). rewrite (app_assoc seen [t] ts). split; [reflexivity|]. split; [exact G2|].
      intros made rest Hm. destruct (R (made ++ [TFloat 0 Native]) rest (FIN made Hm)) as (x & h & Eg & Qx & Hl & Cm).
      destruct (finish seen t ts made (TFloat 0 Native) h (TStruct size x)) as (U & A & Hl' & Cm'); try assumption; try (now rewrite app_assoc); [rewrite Et; cbn [same]; rewrite (app_assoc seen [t] ts); auto|].
      exists (base + length made)%nat, ([TStruct size x] ++ h). cbn [get_type stream app]. rewrite plain by reflexivity. change (48 / 16) with 3. unfold read_size. reads. rewrite <- (app_assoc a), <- (app_assoc b), Q. reads. rewrite Qb. reads. rewrite ADR by exact Hm. rewrite Nat2N.id, Eg. unfold store. reads.
      rewrite (app_assoc seen [t] ts) in A, Hl', Cm'. rewrite U. auto.
    + destruct (size_trips count W) as (b & P & Q). rewrite P. destruct (reference_trips fuel IH (seen ++ [t]) t'' G1 (C _ (or_introl eq_refl)) L1) as (a & ts & E & G2 & R). rewrite E. exists (80 :: b ++ a), ([t] ++ ts). rewrite (app_assoc seen [t] ts). split; [reflexivity|]. split; [exact G2|].
      intros made rest Hm. destruct (R (made ++ [TFloat 0 Native]) rest (FIN made Hm)) as (x & h & Eg & Qx & Hl & Cm).
      destruct (finish seen t ts made (TFloat 0 Native) h (TArray x count)) as (U & A & Hl' & Cm'); try assumption; try (now rewrite app_assoc); [rewrite Et; cbn [same]; rewrite (app_assoc seen [t] ts); auto|].
      exists (base + length made)%nat, ([TArray x count] ++ h). cbn [get_type stream app]. rewrite plain by reflexivity. change (80 / 16) with 5. unfold read_size. reads. rewrite <- (app_assoc b), Q. reads. rewrite ADR by exact Hm. rewrite Eg. unfold store. reads.
      rewrite (app_assoc seen [t] ts) in A, Hl', Cm'. rewrite U. auto.
    + contradiction.
    + destruct (count_trips count W) as (b & P & Q). rewrite P. destruct (reference_trips fuel IH (seen ++ [t]) t'' G1 (C _ (or_introl eq_refl)) L1) as (a & ts & E & G2 & R). rewrite E. exists (112 :: b ++ a), ([t] ++ ts). rewrite (app_assoc seen [t] ts). split; [reflexivity|]. split; [exact G2|].
      intros made rest Hm. destruct (R (made ++ [TFloat 0 Native]) rest (FIN made Hm)) as (x & h & Eg & Qx & Hl & Cm).
      destruct (finish seen t ts made (TFloat 0 Native) h (TEnumerable x count)) as (U & A & Hl' & Cm'); try assumption; try (now rewrite app_assoc); [rewrite Et; cbn [same]; rewrite (app_assoc seen [t] ts); auto|].
      exists (base + length made)%nat, ([TEnumerable x count] ++ h). cbn [get_type stream app]. rewrite plain by reflexivity. change (112 / 16) with 7. reads. destruct (Q (a ++ rest)) as (bs & Eb & Ob). rewrite <- (app_assoc b), Eb. reads. rewrite ADR by exact Hm. rewrite Eg, Ob. unfold store. reads.
      rewrite (app_assoc seen [t] ts) in A, Hl', Cm'. rewrite U. auto.
Qed.
End Trip.

Section Whole.
Variables (types : tid -> type) (lookup : option (tid -> N)) (put_destructor : N -> list N).
Variables (base : nat) (find : option (N -> option tid)) (get_destructor : list N -> option (N * list N)).
Variable all : list tid.
Hypothesis destructors : forall d rest, get_destructor (put_destructor d ++ rest) = Some (d, rest).
Hypothesis Hagree : agree lookup find.
Hypothesis Hclosed : closed types (looks_up lookup) all.
Hypothesis Hsize : N.of_nat (length all) < 2 ^ 56.
Hypothesis Hbase : forall t, In t all -> (t < base)%nat.

Lemma left_all seen : (left all seen <= length all)%nat.
Proof. unfold left. clear. induction all as [|x l IH]; cbn [filter length]; [lia|]. destruct (negb _); cbn [length]; lia. Qed.

Lemma address_inj seen a b : incl seen all -> In a seen -> In b seen -> address lookup base seen a = address lookup base seen b -> a = b.
Proof.
  intros G Ia Ib. unfold address. destruct (known lookup a) eqn:Ka, (known lookup b) eqn:Kb; [auto| | |].
  - destruct (index_in b (fresh lookup seen)) as [i Hi]; [now apply in_fresh|]. rewrite Hi. specialize (Hbase a (G a Ia)). lia.
  - destruct (index_in a (fresh lookup seen)) as [i Hi]; [now apply in_fresh|]. rewrite Hi. specialize (Hbase b (G b Ib)). lia.
  - destruct (index_in a (fresh lookup seen)) as [i Hi]; [now apply in_fresh|]. destruct (index_in b (fresh lookup seen)) as [j Hj]; [now apply in_fresh|]. rewrite Hi, Hj. intros E. assert (i = j) by lia. subst j. apply index_nth in Hi, Hj. congruence.
Qed.

Lemma whole fuel t : In t all -> (length all <= fuel)%nat ->
  exists out, write_type types lookup put_destructor fuel t = Some out /\
  forall rest, exists a types', read_type base find get_destructor types fuel (out ++ rest) = Some (a, types', rest) /\
    (forall t, (t < base)%nat -> types' t = types t) /\ exists R, copies types types' base (looks_up lookup) R /\ R a t /\ (forall a t, R a t -> In t all).
Proof.
  intros I L. destruct (type_trips types lookup put_destructor base find get_destructor all destructors Hagree Hclosed Hsize fuel [] t) as (out & ts & E & [Gd Gi] & Q).
  - split; [constructor|intros x []].
  - exact I.
  - intros [].
  - pose proof (left_all []). lia.
  - cbn [app] in *. exists out. unfold write_type. rewrite E. split; [reflexivity|]. intros rest. destruct (Q [] rest eq_refl) as (a & h & Eg & [Ia Ea] & Hl & C). unfold read_type. change (addresses lookup base []) with (@nil tid) in Eg. rewrite Eg. cbn [app ReflectTypeModel.made stream] in *.
    eexists a, _. split; [reflexivity|]. split.
    + intros t' Ht. now replace (t' <? base)%nat with true by lia.
    + exists (related lookup base ts). split; [|split; [split; assumption|intros ? ? []; auto]]. constructor.
      * intros x y z [Iy ->] [Iz Ez]. now apply (address_inj ts).
      * intros x y z [_ ->] [_ ->]. reflexivity.
      * intros x y [Iy ->] K. apply known_is in K. unfold address. now rewrite K.
      * intros x y [Iy ->] K. assert (Ky : known lookup y = false) by (destruct (known lookup y) eqn:Ky; [exfalso; apply K; now apply known_is|reflexivity]).
        destruct (C y Iy Ky) as (i & d & Hi & Hd & Sd). unfold address. rewrite Ky, Hi. split; [lia|]. replace (base + i <? base)%nat with false by lia. replace (base + i - base)%nat with i by lia. now rewrite (nth_error_nth _ _ _ Hd).
Qed.
End Whole.

(** ** Values of a type that was read *)
Lemma each_same (f g : reader) : (forall s, f s = g s) -> forall n s, read_each f n s = read_each g n s.
Proof. intros H. induction n as [|n IH]; intros s; cbn [read_each]; [reflexivity|]. rewrite H. destruct (g s) as [[v s']|]; [|reflexivity]. now rewrite IH. Qed.

Lemma while_same (f g : reader) : (forall s, f s = g s) -> forall n s, read_while f n s = read_while g n s.
Proof. intros H. induction n as [|n IH]; intros [|x s]; cbn [read_while]; try reflexivity. destruct (x =? 0); [reflexivity|]. rewrite H. destruct (g s) as [[v s']|]; [|reflexivity]. now rewrite IH. Qed.

Lemma element_same (f g : reader) : (forall s, f s = g s) -> forall s, read_element f s = read_element g s.
Proof. intros H s. unfold read_element. now rewrite H. Qed.

Lemma fields_same (f g : tid -> reader) (R : tid -> tid -> Prop) : (forall a t s, R a t -> f a s = g t s) -> forall ta tt, Forall2 R ta tt -> forall s, read_fields f ta s = read_fields g tt s.
Proof. intros H. induction 1 as [|a t ta tt Rt _ IH]; intros s; cbn [read_fields]; [reflexivity|]. rewrite (H a t s Rt). destruct (g t s) as [[v s']|]; [|reflexivity]. now rewrite IH. Qed.

Section Same.
Variables (types types' : tid -> type) (base : nat) (lookup : option (tid -> N)) (R : tid -> tid -> Prop) (wire : endian) (prefer : nat).
Hypothesis Hown : forall t, (t < base)%nat -> types' t = types t.
Hypothesis Hrefers : forall t t', (t < base)%nat -> In t' (refers (types t)) -> (t' < base)%nat.
Hypothesis Hcopies : copies types types' base (looks_up lookup) R.
Hypothesis Hbelow : forall a t, R a t -> (t < base)%nat.

Lemma own_same : forall fuel t s, (t < base)%nat -> deserialize (fun t => described (types' t)) wire prefer fuel t s = deserialize (fun t => described (types t)) wire prefer fuel t s.
Proof.
  induction fuel as [|fuel IH]; intros t s Ht; [reflexivity|]. cbn [deserialize]. rewrite (Hown t Ht). pose proof (Hrefers t) as Hr. destruct (types t) as [t'' o d|size e signed fixed|size e|size fields|t'' count|t'' v|t'' count]; cbn [described refers] in *; try reflexivity.
  - destruct s as [|x s]; [reflexivity|]. rewrite IH; [reflexivity|]. apply Hr; auto. now left.
  - rewrite (fields_same _ (deserialize (fun t => described (types t)) wire prefer fuel) (fun a t => a = t /\ (t < base)%nat)) with (tt := map field_type fields); [reflexivity|intros a t' s' [-> H]; now apply IH|].
    assert (F : forall x, In x (map field_type fields) -> (x < base)%nat) by (intros x Hx; now apply Hr). revert F. generalize (map field_type fields). induction l as [|x l IHl]; intros F; constructor; [split; [reflexivity|apply F; now left]|apply IHl; intros y Hy; apply F; now right].
  - rewrite (each_same _ (deserialize (fun t => described (types t)) wire prefer fuel t'')); [reflexivity|]. intros s'. apply IH, Hr; auto. now left.
  - rewrite IH; [reflexivity|]. apply Hr; auto. now left.
  - assert (F : forall s, read_element (deserialize (fun t => described (types' t)) wire prefer fuel t'') s = read_element (deserialize (fun t => described (types t)) wire prefer fuel t'') s) by (apply element_same; intros s'; apply IH, Hr; auto; now left).
    destruct (deserialize_variable true Native 8 s) as [[bs s']|]; [|reflexivity]. destruct (of_bytes bs =? size_max); [now rewrite (while_same _ _ F)|now rewrite (each_same _ _ F)].
Qed.

Lemma copy_same : forall fuel a t s, R a t -> deserialize (fun t => described (types' t)) wire prefer fuel a s = deserialize (fun t => described (types t)) wire prefer fuel t s.
Proof.
  induction fuel as [|fuel IH]; intros a t s H; [reflexivity|]. destruct (known lookup t) eqn:K.
  - apply known_is in K. rewrite (own _ _ _ _ _ Hcopies a t H K). apply own_same. eapply Hbelow, H.
  - assert (NK : ~ looks_up lookup t) by (rewrite <- known_is; congruence). destruct (new _ _ _ _ _ Hcopies a t H NK) as [_ Sm]. cbn [deserialize].
    destruct (types' a) as [t1 o d|size e signed fixed|size e|size fields|t1 count|t1 v|t1 count], (types t) as [t2 o2 d2|size2 e2 signed2 fixed2|size2 e2|size2 fields2|t2 count2|t2 v2|t2 count2]; cbn [same] in Sm; try contradiction; cbn [described].
    + destruct Sm as (Rt & _). destruct s as [|x s]; [reflexivity|]. now rewrite (IH t1 t2).
    + destruct Sm as (-> & -> & -> & ->). reflexivity.
    + destruct Sm as (-> & ->). reflexivity.
    + destruct Sm as (_ & F). rewrite (fields_same _ (deserialize (fun t => described (types t)) wire prefer fuel) R) with (tt := map field_type fields2); [reflexivity|intros; now apply IH|]. clear - F. induction F as [|f f' l l' [_ Rf] _ IHF]; constructor; auto.
    + destruct Sm as (Rt & ->). rewrite (each_same _ (deserialize (fun t => described (types t)) wire prefer fuel t2)); [reflexivity|]. intros s'. now apply IH.
    + destruct Sm as (Rt & ->). assert (F : forall s, read_element (deserialize (fun t => described (types' t)) wire prefer fuel t1) s = read_element (deserialize (fun t => described (types t)) wire prefer fuel t2) s) by (apply element_same; intros s'; now apply IH).
      destruct (deserialize_variable true Native 8 s) as [[bs s']|]; [|reflexivity]. destruct (of_bytes bs =? size_max); [now rewrite (while_same _ _ F)|now rewrite (each_same _ _ F)].
Qed.
End Same.
