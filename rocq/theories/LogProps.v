(** C77: log messages. *)
From Coq Require Import Ascii List NArith Lia Bool.
From Verif Require Import FormatModel FormatSpec FormatProofs FormatProps LogModel LogSpec LogProofs.
Import ListNotations.
Open Scope char_scope.
Open Scope N_scope.

(** A message is its heading, then what the format says: characters as they are, what a filter makes of
    the specifiers it takes (the first that does), and otherwise what printf makes of the directive with
    the next arguments; then the message filters change it in turn.  Nothing is written outside the
    message's memory, however long it is.  Partial: directives no filter takes have no width or
    precision from the arguments, there is at least one specifier filter, memory is available, and the
    line is below 2^31. *)
Theorem c77_message_partial : forall P fs ms tag file func line l a,
  fs <> [] -> line < 2 ^ 31 ->
  exists h, headed tag file func line h /\
    forall body, rendered P fs l a h body ->
      log P fs ms tag file func line (show_all l) a = Some (filtered ms body).
Proof.
  intros P fs ms tag file func line l a Hf Hl. exists (heading tag file func line).
  split; [exact (heading_ok tag file func line Hl)|]. intros body H. exact (log_ok P fs ms tag file func line l a body Hf H).
Qed.
Print Assumptions c77_message_partial.
(** "n=%hhB %d%%" with 5 and 7, and a message filter that adds "!" *)
Definition l_case : list piece :=
  [Lit "n"; Lit "="; Custom ["%"; "h"; "h"; "B"]; Lit " "; Std d_int; Percent].
Example c77_message_case : forall P,
  log P [string_filter; binary] [fun _ => [Write ["!"]]] ["T"] (Some ["f"; "."; "c"]) None 120
    (show_all l_case) [AInt 5; AInt 7] =
  Some (["T"; ":"; "["; "f"; "."; "c"; ":"; "1"; "2"; "0"; "]"; ":"; " "; "n"; "=";
         "0"; "0"; "0"; "0"; "0"; "1"; "0"; "1"; " "] ++ P d_int [AInt 7] ++ ["%"; "!"]).
Proof.
  intros P. destruct (c77_message_partial P [string_filter; binary] [fun _ => [Write ["!"]]] ["T"]
    (Some ["f"; "."; "c"]) None 120 l_case [AInt 5; AInt 7] ltac:(discriminate) ltac:(lia)) as (h & (ds & Hn & Hh) & H).
  pose proof (number_unique 120 ["1"; "2"; "0"] ds) as U.
  rewrite <- U in Hh; [|split; [|split]|exact Hn].
  2: { repeat (constructor; [cbn; tauto|]). constructor. }
  2: { reflexivity. }
  2: { right. exists "1", ["2"; "0"]. split; [reflexivity|discriminate]. }
  subst h. rewrite (H ((["T"; ":"; "["; "f"; "."; "c"; ":"; "1"; "2"; "0"; "]"; ":"; " "; "n"; "=";
         "0"; "0"; "0"; "0"; "0"; "1"; "0"; "1"; " "] ++ P d_int [AInt 7]) ++ ["%"])).
  - cbn [filtered fold_left apply apply_act]. rewrite <- !app_assoc. reflexivity.
  - unfold l_case. apply r_char; [discriminate|]. apply r_char; [discriminate|].
    eapply (r_custom P [string_filter; binary] ["%"; "h"; "h"; "B"] binary [string_filter] []); try reflexivity.
    { intros g [<-|[]]. reflexivity. }
    apply r_char; [discriminate|].
    apply (r_std P [string_filter; binary] d_int [AInt 7] [Percent] []); [exact d_int_wf|split; discriminate| | |].
    { exists TInt, [], [], (AInt 7). repeat split; constructor. }
    { intros g [<-|[<-|[]]]; reflexivity. }
    apply r_percent; [intros g [<-|[<-|[]]]; reflexivity|].
    vm_compute apply. constructor.
Qed.

(** Without filters the message is the heading and what printf makes of the format and its arguments. *)
Theorem c77_no_filters_partial : forall P tag file func line l a o,
  line < 2 ^ 31 -> printed P l a o ->
  exists h, headed tag file func line h /\ log P [] [] tag file func line (show_all l) a = Some (h ++ o).
Proof.
  intros P tag file func line l a o Hl H. exists (heading tag file func line).
  split; [exact (heading_ok tag file func line Hl)|exact (plain_log P tag file func line l a o H)].
Qed.
Print Assumptions c77_no_filters_partial.

(** The library's own filters change nothing of a message that uses none of their specifiers.
    Partial: without widths or precisions from the arguments. *)
Theorem c77_filters_transparent_partial : forall P fs tag file func line l a o,
  (forall f, In f fs -> In f [binary; deletion; array P; string_filter]) ->
  starless l -> printed P l a o ->
  log P fs [] tag file func line (show_all l) a = log P [] [] tag file func line (show_all l) a.
Proof.
  intros P fs tag file func line l a o Hf Ns H. apply transparent with (o := o); [|exact Ns|exact H].
  intros f K. exact (builtin_quiet P f (Hf f K)).
Qed.
Print Assumptions c77_filters_transparent_partial.
Example c77_transparent_case : forall P,
  log P [array P; string_filter; binary; deletion] [] ["T"] None (Some ["g"]) 3 (show_all [Lit "x"; Percent; Std d_int]) [AInt 7] =
  Some (["T"; ":"; "g"; ":"; " "; "x"; "%"] ++ P d_int [AInt 7]).
Proof.
  intros P.
  assert (printed P [Lit "x"; Percent; Std d_int] [AInt 7] ("x" :: "%" :: P d_int [AInt 7] ++ [])) as H.
  { apply p_char; [discriminate|]. apply p_percent. apply (p_std P d_int [AInt 7] [] []); [exact d_int_wf| |constructor].
    exists TInt, [], [], (AInt 7). repeat split; constructor. }
  rewrite (c77_filters_transparent_partial P [array P; string_filter; binary; deletion] ["T"] None (Some ["g"]) 3 _ [AInt 7] _) with (3 := H).
  - destruct (c77_no_filters_partial P ["T"] None (Some ["g"]) 3 _ _ _ ltac:(lia) H) as (h & (ds & _ & ->) & ->).
    rewrite app_nil_r. reflexivity.
  - intros f Hf. cbn in Hf |- *. tauto.
  - intros d [E|[E|[E|[]]]]; try discriminate. injection E as <-. split; discriminate.
Qed.

(** With a filter registered, a width from the arguments shifts the arguments of what follows: the next
    directive shows the value of the one before. *)
Theorem c77_star_refuted : forall P tag file func line,
  let l := [Std d_star; Lit " "; Std d_int] in
  let a := [AInt 5; AInt 1; AInt 2] in
  exists h,
    log P [] [] tag file func line (show_all l) a = Some (h ++ P d_star [AInt 5; AInt 1] ++ [" "] ++ P d_int [AInt 2]) /\
    log P [binary] [] tag file func line (show_all l) a = Some (h ++ P d_star [AInt 5; AInt 1] ++ [" "] ++ P d_int [AInt 1]).
Proof.
  intros P tag file func line l a. exists (heading tag file func line). split.
  - apply plain_log. unfold a, l.
    apply (p_std P d_star [AInt 5; AInt 1] [Lit " "; Std d_int] [AInt 2]); [exact d_star_wf| |].
    { exists TInt, [AInt 5], [], (AInt 1). repeat split; constructor. }
    apply p_char; [discriminate|].
    replace (P d_int [AInt 2]) with (P d_int [AInt 2] ++ []) by apply app_nil_r.
    apply (p_std P d_int [AInt 2] [] []); [exact d_int_wf| |constructor].
    exists TInt, [], [], (AInt 2). repeat split; constructor.
  - exact (star_shift P tag file func line).
Qed.
Print Assumptions c77_star_refuted.

(** Without specifier filters a message filter that adds 16 characters or more writes outside the
    message's memory. *)
Theorem c77_message_filter_refuted : forall P tag file func line l a o s ms,
  line < 2 ^ 31 -> printed P l a o -> (16 <= length s)%nat ->
  (forall h, headed tag file func line h -> N.of_nat (length (h ++ o ++ s)) < 2 ^ 63) ->
  log P [] ((fun _ => [Write s]) :: ms) tag file func line (show_all l) a = None.
Proof.
  intros P tag file func line l a o s ms Hl H Hs B. specialize (B _ (heading_ok tag file func line Hl)).
  rewrite app_assoc, app_length in B. apply overflow with (o := o); try assumption; lia.
Qed.
Print Assumptions c77_message_filter_refuted.
Example c77_message_filter_case : forall P,
  log P [] [fun _ => [Write (repeat "." 16)]] ["T"] None None 1 ["h"; "i"] [] = None.
Proof.
  intros P. refine (c77_message_filter_refuted P ["T"] None None 1 [Lit "h"; Lit "i"] [] ["h"; "i"] (repeat "." 16) [] _ _ _ _).
  - lia.
  - apply p_char; [discriminate|]. apply p_char; [discriminate|]. constructor.
  - cbn. lia.
  - intros h (ds & _ & ->). vm_compute. reflexivity.
Qed.

(** If memory runs out for a filter's write, its next write goes outside the message's memory. *)
Theorem c77_failed_write_refuted : forall s b, sound b -> size b - len b < N.of_nat (length s) ->
  exists b', buffer_write false s b = Some b' /\ text b' = text b /\ buffer_write true s b' = None.
Proof. exact failed_write. Qed.
Print Assumptions c77_failed_write_refuted.
Example c77_failed_write_case : sound (mkbuf 64 65 ["h"; "i"]) /\
  size (mkbuf 64 65 ["h"; "i"]) - len (mkbuf 64 65 ["h"; "i"]) < N.of_nat (length (repeat "." 63)).
Proof. split; [split|]; vm_compute; [discriminate|reflexivity|reflexivity]. Qed.

(** Lines from 2^31 are shown as negative numbers. *)
Theorem c77_line_refuted : forall P fs tag f func line, 2 ^ 31 <= line -> line < 2 ^ 32 ->
  exists ds, number (2 ^ 32 - line) ds /\
    log P fs [] tag (Some f) func line [] [] = Some (tag ++ [":"; "["] ++ f ++ [":"; "-"] ++ ds ++ ["]"; ":"] ++
      match func with Some g => g ++ [":"; " "] | None => [" "] end).
Proof. exact large_line. Qed.
Print Assumptions c77_line_refuted.
