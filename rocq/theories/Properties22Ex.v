(** Concrete cases of the theorems of Properties22. *)
From Verif Require Import Properties22 Properties13Ex.
From Coq Require Import String.

Set Implicit Arguments.

Notation e_env := (Build_Env (fun s => N.of_nat (List.length s)) (fun _ => false)).
Notation width := (@str_width (e_env false)).

(** {"key": [1, "two"], "other": {}} *)
Definition v0 : value := VObject [(chars "key", VArray [VNumber (chars "1"); VString (chars "two")]); (chars "other", VObject [])].

Example v0_unescaped : unescaped_value v0.
Proof.
  cbn. repeat split; try (repeat constructor; unfold unescaped; repeat split; (lia || discriminate)).
  exists [], [49%N], [], []. split; [reflexivity|]. split; [left; reflexivity|]. split; [|split; left; reflexivity].
  right. exists 49%N, []. repeat split; try lia. constructor.
Qed.
Example v0_chars : all_chars (fun c => c <> 27%N) v0.
Proof. apply (@all_chars_impl (fun c => 32 <= c)%N); [intros c H; lia|]. apply unescaped_chars, v0_unescaped. Qed.
Example v0_nodes : nodes v0 = 9%N /\ (nodes v0 < U32)%N.
Proof. split; reflexivity. Qed.
Example v0_narrow : narrow_lines (@painted (e_env false) None (pretty_json (fun _ => false) width N.add 22 (value_json v0))).
Proof. apply narrow_check. vm_compute. reflexivity. Qed.

(** Both builds print it; at width 22 the terminal shows
    {
        "key": [1, "two"],
        "other": {}
    }
    and an empty line, with the strings in magenta and the number in blue. *)
Example v0_layout :
  shown_text (shows (jlines (pretty_json (fun _ => false) width N.add 22 (value_json v0)))) =
  chars "{" ++ [10%N] ++ chars "    ""key"": [1, ""two""]," ++ [10%N] ++ chars "    ""other"": {}" ++ [10%N] ++ chars "}" ++ [10%N].
Proof. vm_compute. reflexivity. Qed.
Example v0_shown checks : exists out, ev (fun n => @json_program (e_env checks) n v0 22) (Ok out) /\
  terminal Normal None out = (shows (jlines (pretty_json (fun _ => false) width N.add 22 (value_json v0))) ++ [LineEnd], (Normal, None)) /\
  In (Glyph 49%N (Some Blue)) (fst (terminal Normal None out)) /\ In (Glyph 116%N (Some Magenta)) (fst (terminal Normal None out)) /\
  json_text v0 (shown_text (fst (terminal Normal None out))).
Proof.
  destruct (C56_prints_checked (fun s => N.of_nat (List.length s)) (fun _ => false) checks v0 22%N v0_narrow (proj2 v0_nodes)) as (out & H).
  exists out. split; [exact H|]. pose proof (@C56_layout (fun s => N.of_nat (List.length s)) (fun _ => false) checks v0 22%N out v0_chars v0_narrow H) as E. split; [exact E|].
  split; [|split].
  - rewrite E. vm_compute. tauto.
  - rewrite E. vm_compute. tauto.
  - apply (@C56_reads (fun s => N.of_nat (List.length s)) (fun _ => false) checks v0 22%N out v0_unescaped H).
Qed.
(** On one line at width 32. *)
Example v0_fits : (out_width width (on_one_line (value_json v0)) = 32)%N.
Proof. vm_compute. reflexivity. Qed.

(** The output itself, of a small value: ESC[38;5;5m"ESC[38;5;5mhiESC[38;5;5m"
    NL ESC[39m NL. *)
Example hi_output n : @json_program (e_env true) (60 + n) (VString (chars "hi")) 20 =
  Ok (csi "38;5;5m" ++ [34%N] ++ csi "38;5;5m" ++ chars "hi" ++ csi "38;5;5m" ++ [34%N] ++ [10%N] ++ csi "39m" ++ [10%N]).
Proof. vm_compute. reflexivity. Qed.

(** The values of C56_same_text_refuted fit in 10 columns. *)
Example refuted_fits : (out_width width (on_one_line (value_json two_strings)) = 10)%N /\ (out_width width (on_one_line (value_json one_string)) = 10)%N.
Proof. split; vm_compute; reflexivity. Qed.

(** JSON texts with escapes: "\u0041\n" and its value. *)
Example reads_escapes : json_text (VString [65; 10]%N) (chars " ""\u0041\n"" ").
Proof.
  exists (chars " "), (chars """\u0041\n"""), (chars " "). split; [reflexivity|]. split; [repeat constructor; auto|]. split; [|repeat constructor; auto].
  apply (@rd_string (chars "\u0041\n") [65; 10]%N). eapply sb_unicode; [reflexivity|lia|]. eapply sb_escape; [reflexivity|]. constructor.
Qed.
Example reads_pair : json_text (VArray [VString [128512%N]; VBool true]) (chars "[""\uD83D\uDE00"",true]").
Proof.
  exists [], (chars "[""\uD83D\uDE00"",true]"), []. split; [reflexivity|]. split; [constructor|]. split; [|constructor].
  apply (@rd_array _ (chars """\uD83D\uDE00"",true")).
  apply (@re_more (VString [128512%N]) [] (chars """\uD83D\uDE00""") [] [VBool true] (chars "true")); try constructor.
  - apply (@rd_string (chars "\uD83D\uDE00") [128512%N]). apply (@sb_pair _ _ _ _ _ _ _ _ 55357%N 56832%N); try reflexivity; try lia. constructor.
  - apply (@re_one (VBool true) [] (chars "true") []); constructor.
Qed.
