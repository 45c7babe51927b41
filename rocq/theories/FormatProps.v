(** C76: the format specifiers. *)
From Coq Require Import Ascii List NArith Lia Bool.
From Verif Require Import FormatModel FormatSpec FormatProofs.
Import ListNotations.
Open Scope char_scope.
Open Scope N_scope.

(** A directive is read as it is written: CCGetFormatSpecifierInfo finds its conversion character and
    describes its flags, width, precision and length, whatever follows, with or without the '%'. *)
Theorem c76_info : forall d rest, wf d ->
  exists i, describes d i /\
    get_info (show d ++ rest) = (length (options d), i) /\
    nth (length (options d)) (show d ++ rest) zero = d_conv d /\
    get_info (options d ++ rest) = (length (options d) - 1, i)%nat /\
    nth (length (options d) - 1) (options d ++ rest) zero = d_conv d.
Proof.
  exact (fun d r W => ex_intro _ (the_info d) (conj (the_info_describes d) (conj (get_info_percent d r W)
    (conj (show_last d r W) (conj (get_info_bare d r W) (options_last d r)))))).
Qed.
Print Assumptions c76_info.

(** "%B" shows the bits of its argument, as many as the length modifier says or with '#' up to the
    highest one set, with the width and precision of the standard.  Partial: a width or precision from
    the arguments is not negative, with '#' the value fits the length modifier, and '0' does not come
    with both a width and a precision. *)
Theorem c76_binary_partial : forall d rest a m wa w pa p bits v,
  wf d -> d_conv d = "B" -> resolved (d_width d) wa w -> resolved (d_prec d) pa p -> fits w -> fits p ->
  bits_in (d_length d) = Some bits -> v < 2 ^ arg_bits bits ->
  (In "#" (d_flags d) -> v < 2 ^ N.of_nat bits) ->
  (In "0" (d_flags d) -> In "-" (d_flags d) \/ w = None \/ p = None) ->
  exists ds acts, binary (show d ++ rest) (wa ++ pa ++ value_arg bits v :: a) m = Some (length (show d), a, acts) /\
    digits_of (has "#" (d_flags d)) bits v ds /\
    forall m, apply acts m = m ++ laid_out (d_flags d) w p ds.
Proof. exact binary_ok. Qed.
Print Assumptions c76_binary_partial.

Definition d_bin : directive := mkdir ["-"; "#"] Star (Number ["6"]) ["h"; "h"] "B".
Example c76_binary_case :
  exists ds acts, binary (show d_bin ++ ["!"]) [AInt 10; AInt 13; AInt 1] [] = Some (9%nat, [AInt 1], acts) /\
    digits_of true 8 13 ds /\ forall m, apply acts m = m ++ laid_out ["-"; "#"] (Some 10) (Some 6) ds.
Proof.
  refine (c76_binary_partial d_bin ["!"] [AInt 1] [] [AInt 10] (Some 10) [] (Some 6) 8 13 _ _ _ _ _ _ _ _ _ _).
  - constructor; cbn.
    + repeat constructor; cbn; tauto.
    + exact I.
    + repeat constructor; cbn; tauto.
    + tauto.
    + repeat split; intros H; repeat (destruct H as [H|H]; [discriminate|]); exact H.
  - reflexivity.
  - constructor.
  - exact (res_number ["6"]).
  - reflexivity.
  - reflexivity.
  - reflexivity.
  - reflexivity.
  - reflexivity.
  - cbn. intros H. repeat (destruct H as [H|H]; [discriminate|]). destruct H.
Qed.
Example c76_binary_shows :
  match binary (show d_bin) [AInt 10; AInt 13] [] with
  | Some (_, _, acts) => apply acts ["x"]
  | None => []
  end = ["x"; "0"; "0"; "1"; "1"; "0"; "1"; " "; " "; " "; " "].
Proof. vm_compute. reflexivity. Qed.

(** With '#' and a value wider than the length modifier (as any negative char or short is, after its
    promotion), what is shown begins in front of the digits: undefined behaviour. *)
Theorem c76_binary_narrow_refuted :
  (forall d rest a m wa w pa p bits v,
    wf d -> d_conv d = "B" -> resolved (d_width d) wa w -> resolved (d_prec d) pa p ->
    bits_in (d_length d) = Some bits -> v < 2 ^ arg_bits bits ->
    In "#" (d_flags d) -> 2 ^ N.of_nat bits <= v ->
    binary (show d ++ rest) (wa ++ pa ++ value_arg bits v :: a) m = None) /\
  binary ["%"; "#"; "h"; "h"; "B"] [AInt (2 ^ 32 - 1)] [] = None.
Proof. split; [exact binary_narrow|vm_compute; reflexivity]. Qed.
Print Assumptions c76_binary_narrow_refuted.

(** A negative width from the arguments, which the standard takes as '-' and a width, fills the
    message with about 2^64 characters. *)
Theorem c76_negative_width_refuted : forall d rest a m pa p n bits v,
  wf d -> d_conv d = "B" -> d_width d = Star -> resolved (d_prec d) pa p -> fits p ->
  2 ^ 31 <= n -> n < 2 ^ 32 ->
  bits_in (d_length d) = Some bits -> v < 2 ^ arg_bits bits ->
  (In "#" (d_flags d) -> v < 2 ^ N.of_nat bits) ->
  exists acts, binary (show d ++ rest) (AInt n :: pa ++ value_arg bits v :: a) m = Some (length (show d), a, acts) /\
    forall m, N.of_nat (length (apply acts m)) = N.of_nat (length m) + (2 ^ 64 - (2 ^ 32 - n)).
Proof. exact binary_negative. Qed.
Print Assumptions c76_negative_width_refuted.

(** With a precision the standard ignores '0'; here it still fills with zeros. *)
Theorem c76_zero_flag_refuted :
  exists acts, binary ["%"; "#"; "0"; "8"; "."; "4"; "B"] [AInt 1] [] = Some (7%nat, [], acts) /\
    apply acts [] = ["0"; "0"; "0"; "0"; "0"; "0"; "0"; "1"] /\
    laid_out ["#"; "0"] (Some 8) (Some 4) ["1"] = [" "; " "; " "; " "; "0"; "0"; "0"; "1"].
Proof. eexists. split; [vm_compute; reflexivity|]. vm_compute. repeat split. Qed.
Print Assumptions c76_zero_flag_refuted.

(** "%DEL", "%nDEL" and "%*DEL" take the last characters off the message: one, or as many as asked for
    as long as there are any. *)
Theorem c76_deletion : forall text a0 n rest a m,
  (exists ds, text = "%" :: ds ++ ["D"; "E"; "L"] /\ a0 = [] /\ Forall a_digit ds /\ decimal ds < 2 ^ 64 /\
     n = match ds with [] => 1 | _ => decimal ds end) \/
  (text = ["%"; "*"; "D"; "E"; "L"] /\ a0 = [ALong n]) ->
  exists acts m' last, deletion (text ++ rest) (a0 ++ a) m = Some (length text, a, acts) /\
    apply acts m = m' /\ m = m' ++ last /\ length last = Nat.min (N.to_nat n) (length m).
Proof.
  intros text a0 n rest a m H.
  exists [Remove n], (firstn (length m - N.to_nat n) m), (skipn (length m - N.to_nat n) m).
  split; [|split; [reflexivity|split; [symmetry; apply firstn_skipn|rewrite skipn_length; lia]]].
  destruct H as [(ds & -> & -> & Hd & Hb & ->)|[-> ->]].
  - pose proof (deletion_number ds rest a m Hd Hb) as E. cbn [app] in *. rewrite <- app_assoc. cbn [app]. rewrite E.
    do 3 f_equal. cbn [length]. rewrite app_length. cbn [length]. lia.
  - exact (deletion_star n rest a m).
Qed.
Print Assumptions c76_deletion.
Example c76_deletion_case :
  exists acts m' last, deletion (["%"; "1"; "2"; "D"; "E"; "L"] ++ ["."]) ([] ++ [AInt 4]) ["a"; "b"; "c"] = Some (6%nat, [AInt 4], acts) /\
    apply acts ["a"; "b"; "c"] = m' /\ ["a"; "b"; "c"] = m' ++ last /\ length last = Nat.min 12 3.
Proof.
  refine (c76_deletion ["%"; "1"; "2"; "D"; "E"; "L"] [] 12 ["."] [AInt 4] ["a"; "b"; "c"] (or_introl _)).
  exists ["1"; "2"]. repeat split. repeat constructor; cbn; tauto.
Qed.

(** "%[count separator]specifier" shows each element of the array as the specifier would, with the
    separator between them.  Partial: at least one element, and a specifier that takes no other
    argument. *)
Theorem c76_array_partial : forall P ct ca count st sa sep d t l rest a m,
  count_text ct ca count -> separator_text st sa sep -> wf d -> no_star d -> elements d = Some t ->
  Forall (promotes t) l -> 0 < count -> (N.to_nat count <= length l)%nat ->
  exists acts,
    array P ("%" :: "[" :: ct ++ st ++ "]" :: options d ++ rest) (ca ++ sa ++ APtr (OArray t l) :: a) m =
      Some (length ("%" :: "[" :: ct ++ st ++ "]" :: options d), a, acts) /\
    forall m, apply acts m = m ++ join sep (map (fun v => P d [v]) (firstn (N.to_nat count) l)).
Proof. exact array_ok. Qed.
Print Assumptions c76_array_partial.
Definition d_elem : directive := mkdir ["+"] (Number ["3"]) Absent ["h"] "d".
Lemma d_elem_wf : wf d_elem.
Proof.
  constructor; cbn.
  - repeat constructor; cbn; tauto.
  - split; [repeat constructor; cbn; tauto|split; discriminate].
  - exact I.
  - tauto.
  - repeat split; intros H; repeat (destruct H as [H|H]; [discriminate|]); exact H.
Qed.
Example c76_array_case : forall P,
  exists acts,
    array P (["%"; "["; "*"; ";"; " "; "]"; "+"; "3"; "h"; "d"] ++ ["."])
      [ALong 2; APtr (OArray EShort [AInt 7; AInt 8; AInt 9]); AInt 4] [] = Some (10%nat, [AInt 4], acts) /\
    forall m, apply acts m = m ++ P d_elem [AInt 7] ++ [";"; " "] ++ P d_elem [AInt 8].
Proof.
  intros P.
  refine (c76_array_partial P ["*"] [ALong 2] 2 [";"; " "] [] [";"; " "] d_elem EShort
    [AInt 7; AInt 8; AInt 9] ["."] [AInt 4] [] _ _ d_elem_wf _ _ _ _ _).
  - constructor.
  - apply sep_literal.
    + discriminate.
    + intros c [= <-]. split; [|discriminate]. cbn. intros H. repeat (destruct H as [H|H]; [discriminate|]). exact H.
    + cbn. intros H. repeat (destruct H as [H|H]; [discriminate|]). exact H.
  - split; discriminate.
  - reflexivity.
  - repeat constructor.
  - reflexivity.
  - vm_compute. lia.
Qed.

(** With a count of 0 the array's argument is not taken: the next specifier gets it. *)
Theorem c76_array_empty_refuted : forall P ct ca st sa sep d t l rest a m,
  count_text ct ca 0 -> separator_text st sa sep -> wf d ->
  array P ("%" :: "[" :: ct ++ st ++ "]" :: options d ++ rest) (ca ++ sa ++ APtr (OArray t l) :: a) m =
    Some (length ("%" :: "[" :: ct ++ st ++ "]" :: options d), APtr (OArray t l) :: a, []).
Proof. exact (fun P ct ca st sa sep d t l r a m => array_empty P ct ca st sa sep d r (APtr (OArray t l) :: a) m). Qed.
Print Assumptions c76_array_empty_refuted.

(** "%S" shows the characters of its string. *)
Theorem c76_string : forall rest t a m,
  exists acts, string_filter (["%"; "S"] ++ rest) (APtr (OString t) :: a) m = Some (2%nat, a, acts) /\
    apply acts m = m ++ t.
Proof. intros. eexists. split; reflexivity. Qed.
Print Assumptions c76_string.

(** The custom specifiers leave the standard ones alone: nothing is shown and no argument is taken.
    Partial: not with a width from the arguments. *)
Theorem c76_declined_partial : forall P d t rest a m f,
  wf d -> type_of d = Some t -> d_width d <> Star ->
  In f [binary; deletion; array P; string_filter] ->
  declines f (show d ++ rest) a m.
Proof.
  intros P d t rest a m f W Ht Hw Hf. pose proof (type_standard d t Ht) as Hc.
  assert (d_conv d <> "B" /\ d_conv d <> "D" /\ d_conv d <> "S") as (NB & ND & NS).
  { repeat split; intros E; rewrite E in Hc; cbn in Hc; repeat (destruct Hc as [Hc|Hc]; [discriminate|]); exact Hc. }
  destruct Hf as [<-|[<-|[<-|[<-|[]]]]].
  - exact (binary_declines d rest a m W NB).
  - exact (deletion_declines d rest a m W Hw ND).
  - exact (array_declines P d rest a m W).
  - exact (string_declines d rest a m W NS).
Qed.
Print Assumptions c76_declined_partial.
Example c76_declined_case : forall P, declines deletion (show d_elem ++ ["D"; "E"; "L"]) [AInt 5] [] /\ type_of d_elem = Some TInt /\
  declines (array P) (show d_elem) [AInt 5] [].
Proof.
  intros P. split; [|split; [reflexivity|]].
  - refine (c76_declined_partial P d_elem TInt ["D"; "E"; "L"] [AInt 5] [] deletion d_elem_wf _ _ _); [reflexivity|discriminate|cbn; tauto].
  - rewrite <- (app_nil_r (show d_elem)).
    refine (c76_declined_partial P d_elem TInt [] [AInt 5] [] (array P) d_elem_wf _ _ _); [reflexivity|discriminate|cbn; tauto].
Qed.

(** With a width from the arguments the deletion specifier takes the width although the directive is
    not its own: as a size_t, which is undefined behaviour for an int, and never given back. *)
Theorem c76_deletion_star_refuted : forall c rest n a m, c <> "D" ->
  deletion ("%" :: "*" :: c :: rest) (AInt n :: a) m = None /\
  deletion ("%" :: "*" :: c :: rest) (ALong n :: a) m = Some (0%nat, a, []).
Proof.
  intros c rest n a m Hc. split; [reflexivity|].
  unfold deletion. change (Ascii.eqb "%" "%") with true. change (Ascii.eqb "*" "*") with true. cbv iota. cbn [next_long].
  rewrite starts_false; [reflexivity|]. cbn [length firstn]. intros [= E _]. exact (Hc E).
Qed.
Print Assumptions c76_deletion_star_refuted.
