(** tests/standard/test_cases: basics.rs, children.rs, regressions.rs,
    flow_wrap.rs, ruby_loop.rs and iter_chain.rs, run on the model. *)
From Verif Require Export TestSuite.
From Coq Require Import String.
Local Notation length := List.length.

Set Implicit Arguments.
Local Open Scope string_scope.
Local Open Scope test_scope.

(** ** basics.rs *)
(** basics.rs:5-8. *)
Definition test_basics_empty : bool :=
  (let notation := empty in
  ((simple_pp (notation) 80 [""]) &&
  true))%bool.
Example passes_basics_empty : test_basics_empty = true.
Proof. vm_compute. reflexivity. Qed.
(** basics.rs:11-14. *)
Definition test_basics_literal : bool :=
  (let notation := (lit "Hello world!") in
  ((simple_pp (notation) 80 ["Hello world!"]) &&
  true))%bool.
Example passes_basics_literal : test_basics_literal = true.
Proof. vm_compute. reflexivity. Qed.
(** basics.rs:17-20. *)
Definition test_basics_concat : bool :=
  (let notation := ((lit "Hello") + (lit " world!")) in
  ((simple_pp (notation) 80 ["Hello world!"]) &&
  true))%bool.
Example passes_basics_concat : test_basics_concat = true.
Proof. vm_compute. reflexivity. Qed.
(** basics.rs:23-26. *)
Definition test_basics_newline : bool :=
  (let notation := ((lit "Hello") ^^ (lit "world!")) in
  ((simple_pp (notation) 80 ["Hello"; "world!"]) &&
  true))%bool.
Example passes_basics_newline : test_basics_newline = true.
Proof. vm_compute. reflexivity. Qed.
(** basics.rs:29-32. *)
Definition test_basics_indent : bool :=
  (let notation := ((lit "Hello") + (2 >> (lit "world!"))) in
  ((simple_pp (notation) 80 ["Hello"; "  world!"]) &&
  true))%bool.
Example passes_basics_indent : test_basics_indent = true.
Proof. vm_compute. reflexivity. Qed.
(** basics.rs:35-38. *)
Definition test_basics_non_whitespace_indent : bool :=
  (let notation := ((lit "Hello") + (indent "// " None (nl + (lit "world!")))) in
  ((simple_pp (notation) 80 ["Hello"; "// world!"]) &&
  true))%bool.
Example passes_basics_non_whitespace_indent : test_basics_non_whitespace_indent = true.
Proof. vm_compute. reflexivity. Qed.
(** basics.rs:41-44. *)
Definition test_basics_flat : bool :=
  (let notation := (Flat ((lit "long") <|> ((lit "a") ^^ (lit "b")))) in
  ((simple_pp (notation) 2 ["long"]) &&
  true))%bool.
Example passes_basics_flat : test_basics_flat = true.
Proof. vm_compute. reflexivity. Qed.
(** basics.rs:47-51. *)
Definition test_basics_choice : bool :=
  (let notation := ((lit "Hello world!") <|> ((lit "Hello") ^^ (lit "world!"))) in
  ((simple_pp (notation) 12 ["Hello world!"]) &&
  ((simple_pp (notation) 11 ["Hello"; "world!"]) &&
  true)))%bool.
Example passes_basics_choice : test_basics_choice = true.
Proof. vm_compute. reflexivity. Qed.
(** basics.rs:54-66. *)
Definition test_basics_eol : bool :=
  (let notation := (eol + ((lit "a") <|> nl)) in
  ((cheat_pp (notation) 80 [""; ""]) &&
  let notation := ((eol + (lit "a")) <|> (lit "b")) in
  ((cheat_pp (notation) 80 ["b"]) &&
  let notation := ((eol + nl) + ((lit "a") <|> nl)) in
  ((simple_pp (notation) 80 [""; "a"]) &&
  let notation := ((eol <|> (lit "a")) + (lit "b")) in
  ((cheat_pp (notation) 80 ["ab"]) &&
  true)))))%bool.
Example passes_basics_eol : test_basics_eol = true.
Proof. vm_compute. reflexivity. Qed.
(** basics.rs:97-100. *)
Definition test_hidden_error : bool :=
  (let notation := (((lit "x") ^^ (Flat nl)) <|> (lit "ok")) in
  ((simple_pp (notation) 3 ["x"; ""; ""]) &&
  true))%bool.
Example passes_hidden_error : test_hidden_error = true.
Proof. vm_compute. reflexivity. Qed.
(** basics.rs:103-106. *)
Definition test_tricky_suffix : bool :=
  (let notation := (((lit "a") <|> (lit "bb")) + ((((lit "x") + nl) + (Flat nl)) <|> (lit "yy"))) in
  ((simple_pp (notation) 3 ["ax"; ""; ""]) &&
  true))%bool.
Example passes_tricky_suffix : test_tricky_suffix = true.
Proof. vm_compute. reflexivity. Qed.

(** ** regressions.rs *)
(** regressions.rs:12-16. *)
Definition test_test_regression_1 : bool :=
  (let notation := (((lit "bb") + eol) + (empty <|> nl)) in
  ((simple_pp (notation) 1 ["bb"; ""]) &&
  true))%bool.
Example passes_test_regression_1 : test_test_regression_1 = true.
Proof. vm_compute. reflexivity. Qed.
(** basics.rs:69-94. *)
Definition paths_doc : making :=
  jarray [jarray [jstring "0.0"; jstring "0.1"]; jstring "1"; jarray [jarray [jstring "2.0.0"]; jstring "2.1"]].
Example passes_test_all_paths_fn :
  with_tree paths_doc (fun t => match @all_paths tpd 100 t with
    | Ok l => if list_eq_dec (list_eq_dec Nat.eq_dec) l [[]; [0]; [0; 0]; [0; 1]; [1]; [2]; [2; 0]; [2; 0; 0]; [2; 1]] then true else false
    | _ => false end) = true.
Proof. vm_compute. reflexivity. Qed.

(** ** children.rs: [element] and the four notations *)
Definition element (s : string) : making := new_text Text s.
Definition COUNT_NOTATION : tree_notation := (Count (lit "0") ((lit "1: ") + (Child 0)) ((lit "n: ") + (Fold (Child 0) ((Left + (lit ", ")) + Right)))).
Example accepted_COUNT_NOTATION : accepted COUNT_NOTATION = true.
Proof. vm_compute. reflexivity. Qed.
Definition FOLD_NOTATION : tree_notation := (((lit "[") + (2 >> (Fold ((lit "first: ") + (Child 0)) (Left ^^ ((lit "later: ") + Right))))) ^^ (lit "]")).
Example accepted_FOLD_NOTATION : accepted FOLD_NOTATION = true.
Proof. vm_compute. reflexivity. Qed.
Definition COMMENT_LIST_NOTATION : tree_notation :=
  let cond := IsComment in
  let list_seq := (Fold ((Check cond (CPChild 0) (lit "/* ") empty) + (Child 0))
    ((Left + (Check cond LeftChild (lit " */") empty)) ^^ ((Check cond RightChild (lit "/* ") empty) + Right))) in
  let list_note := (list_seq + (Check cond (CPChild (-1)) (lit " */") empty)) in
  list_note.
Example accepted_COMMENT_LIST_NOTATION : accepted COMMENT_LIST_NOTATION = true.
Proof. vm_compute. reflexivity. Qed.
Definition NEGATIVE_NOTATION : tree_notation := (((Child (-1)) + (Child (-2))) + (Child (-3))).
Example accepted_NEGATIVE_NOTATION : accepted NEGATIVE_NOTATION = true.
Proof. vm_compute. reflexivity. Qed.
(** children.rs:17-47. *)
Definition test_test_count : bool :=
  (((tree_pp (new_branch COUNT_NOTATION []) 80 ["0"]) &&
  ((tree_pp (new_branch COUNT_NOTATION [(element "aaaa")]) 80 ["1: aaaa"]) &&
  ((tree_pp (new_branch COUNT_NOTATION [(element "aaaa"); (element "bbbb")]) 80 ["n: aaaa, bbbb"]) &&
  true))))%bool.
Example passes_test_count : test_test_count = true.
Proof. vm_compute. reflexivity. Qed.
(** children.rs:50-95. *)
Definition test_test_fold : bool :=
  (((tree_pp (new_branch FOLD_NOTATION [(element "aaaa"); (element "bbbb"); (element "cccc")]) 80 ["["; "  first: aaaa"; "  later: bbbb"; "  later: cccc"; "]"]) &&
  ((tree_pp (new_branch FOLD_NOTATION [(element "aaaa")]) 80 ["["; "  first: aaaa"; "]"]) &&
  ((tree_pp (new_branch FOLD_NOTATION []) 80 ["["; "  "; "]"]) &&
  true))))%bool.
Example passes_test_fold : test_test_fold = true.
Proof. vm_compute. reflexivity. Qed.
(** children.rs:98-141. *)
Definition test_test_condition_positions : bool :=
  ((tree_pp (new_branch COMMENT_LIST_NOTATION [into_comment (element "aaaa"); (element "bbbb"); (element "cccc"); into_comment (element "dddd")]) 80
     ["/* aaaa */"; "bbbb"; "cccc"; "/* dddd */"]) &&
  (tree_pp (new_branch COMMENT_LIST_NOTATION [into_comment (element "aaaa")]) 80 ["/* aaaa */"]))%bool.
Example passes_test_condition_positions : test_test_condition_positions = true.
Proof. vm_compute. reflexivity. Qed.
(** children.rs:144-156. *)
Definition test_test_negative_child_indices : bool :=
  (((tree_pp (new_branch NEGATIVE_NOTATION [(element "a"); (element "b"); (element "c")]) 80 ["cba"]) &&
  true))%bool.
Example passes_test_negative_child_indices : test_test_negative_child_indices = true.
Proof. vm_compute. reflexivity. Qed.

(** ** flow_wrap.rs: the notations (lines 24-44) and [paragraph] *)
Definition START := "始".
Definition END := "端".
Definition WORD_NOTATION : notation nat nat := Text.
Example accepted_WORD_NOTATION : accepted WORD_NOTATION = true.
Proof. vm_compute. reflexivity. Qed.
Definition WORDS_NOTATION : notation nat nat :=   let soft_break := ((lit " ") <|> nl) in (Count (lit "") ((lit "    ") + (Child 0)) ((lit "    ") + (Fold (Child 0) (((Left + (lit ",")) + soft_break) + Right)))).
Example accepted_WORDS_NOTATION : accepted WORDS_NOTATION = true.
Proof. vm_compute. reflexivity. Qed.
Definition PARAGRAPH_NOTATION : notation nat nat := (((lit START) + (Child 0)) + (lit END)).
Example accepted_PARAGRAPH_NOTATION : accepted PARAGRAPH_NOTATION = true.
Proof. vm_compute. reflexivity. Qed.
Definition paragraph (words : list string) : sdoc :=
  node PARAGRAPH_NOTATION [node WORDS_NOTATION (map (leaf WORD_NOTATION) words)].
(** flow_wrap.rs:135-374. *)
Definition test_flow_wrap : bool :=
  (let doc := (paragraph ["Oh"; "woe"; "is"; "me"; "the"; "turbofish"; "remains"; "undefeated"]) in
  ((sdoc_pp doc 80 ["始    Oh, woe, is, me, the, turbofish, remains, undefeated端"]) &&
  ((sdoc_pp doc 60 ["始    Oh, woe, is, me, the, turbofish, remains, undefeated端"]) &&
  ((sdoc_pp doc 59 ["始    Oh, woe, is, me, the, turbofish, remains,"; "undefeated端"]) &&
  ((sdoc_pp doc 47 ["始    Oh, woe, is, me, the, turbofish, remains,"; "undefeated端"]) &&
  ((sdoc_pp doc 45 ["始    Oh, woe, is, me, the, turbofish,"; "remains, undefeated端"]) &&
  ((sdoc_pp doc 21 ["始    Oh, woe, is,"; "me, the, turbofish,"; "remains, undefeated端"]) &&
  ((sdoc_pp doc 19 ["始    Oh, woe, is,"; "me, the, turbofish,"; "remains,"; "undefeated端"]) &&
  ((sdoc_pp doc 18 ["始    Oh, woe, is,"; "me, the,"; "turbofish,"; "remains,"; "undefeated端"]) &&
  ((sdoc_pp doc 14 ["始    Oh, woe,"; "is, me, the,"; "turbofish,"; "remains,"; "undefeated端"]) &&
  ((sdoc_pp doc 0 ["始    Oh,"; "woe,"; "is,"; "me,"; "the,"; "turbofish,"; "remains,"; "undefeated端"]) &&
  ((sdoc_seek doc 19 [] ["(始    Oh, woe, is,"; "me, the, turbofish,"; "remains,"; "undefeated端)"]) &&
  ((sdoc_seek doc 19 [0] ["始(    Oh, woe, is,"; "me, the, turbofish,"; "remains,"; "undefeated)端"]) &&
  ((sdoc_seek doc 19 [0; 0] ["始    (Oh), woe, is,"; "me, the, turbofish,"; "remains,"; "undefeated端"]) &&
  ((sdoc_seek doc 19 [0; 1] ["始    Oh, (woe), is,"; "me, the, turbofish,"; "remains,"; "undefeated端"]) &&
  ((sdoc_seek doc 19 [0; 2] ["始    Oh, woe, (is),"; "me, the, turbofish,"; "remains,"; "undefeated端"]) &&
  ((sdoc_seek doc 19 [0; 3] ["始    Oh, woe, is,"; "(me), the, turbofish,"; "remains,"; "undefeated端"]) &&
  ((sdoc_seek doc 19 [0; 4] ["始    Oh, woe, is,"; "me, (the), turbofish,"; "remains,"; "undefeated端"]) &&
  ((sdoc_seek doc 19 [0; 5] ["始    Oh, woe, is,"; "me, the, (turbofish),"; "remains,"; "undefeated端"]) &&
  ((sdoc_seek doc 19 [0; 6] ["始    Oh, woe, is,"; "me, the, turbofish,"; "(remains),"; "undefeated端"]) &&
  ((sdoc_seek doc 19 [0; 7] ["始    Oh, woe, is,"; "me, the, turbofish,"; "remains,"; "(undefeated)端"]) &&
  true)))))))))))))))))))))%bool.
Example passes_flow_wrap : test_flow_wrap = true.
Proof. vm_compute. reflexivity. Qed.

(** ** ruby_loop.rs: the notations (lines 20-35) and the constructors *)
Definition var (s : string) : sdoc := leaf Text s.
Definition RUBY_CALL_NOTATION : notation nat nat :=   let single := ((((lit ".") + (Child 1)) + (lit " ")) + (Child 2)) in
  let two_lines := ((((lit ".") + (Child 1)) + (lit " ")) + (Child 2)) in
  let multi := (((lit ".") + (Child 1)) + (4 >> (Child 2))) in ((Child 0) + (single <|> (4 >> (two_lines <|> multi)))).
Example accepted_RUBY_CALL_NOTATION : accepted RUBY_CALL_NOTATION = true.
Proof. vm_compute. reflexivity. Qed.
Definition DO_LOOP_NOTATION : notation nat nat :=   let single := (((((lit "do |") + (Child 0)) + (lit "| ")) + (Flat (Child 1))) + (lit " end")) in
  let multi := (((((lit "do |") + (Child 0)) + (lit "|")) + (4 >> (Child 1))) ^^ (lit "end")) in (single <|> multi).
Example accepted_DO_LOOP_NOTATION : accepted DO_LOOP_NOTATION = true.
Proof. vm_compute. reflexivity. Qed.
Definition ruby_call (obj : sdoc) (method : string) (arg : sdoc) : sdoc := node RUBY_CALL_NOTATION [obj; var method; arg].
Definition do_loop (v : string) (body : sdoc) : sdoc := node DO_LOOP_NOTATION [var v; body].
(** ruby_loop.rs:130-160. *)
Definition test_ruby_loop : bool :=
  (let doc := (ruby_call (var "(1..5)") "each" (do_loop "i" (var "puts i"))) in
  ((sdoc_pp doc 30 ["(1..5).each do |i| puts i end"]) &&
  ((sdoc_pp doc 20 ["(1..5).each do |i|"; "    puts i"; "end"]) &&
  ((sdoc_pp doc 15 ["(1..5)"; "    .each"; "        do |i|"; "            puts i"; "        end"]) &&
  true))))%bool.
Example passes_ruby_loop : test_ruby_loop = true.
Proof. vm_compute. reflexivity. Qed.

(** ** iter_chain.rs: the notations (lines 22-50) and the constructors *)
Definition METHOD_CALL_NOTATION : notation nat nat :=   let single := (((((lit ".") + (Child 1)) + (lit "(")) + (Flat (Child 2))) + (lit ")")) in
  let two_lines := (((((lit ".") + (Child 1)) + (lit "(")) + (Flat (Child 2))) + (lit ")")) in
  let multi := (((((lit ".") + (Child 1)) + (lit "(")) + (4 >> (Child 2))) ^^ (lit ")")) in ((Child 0) + (single <|> (4 >> (two_lines <|> multi)))).
Example accepted_METHOD_CALL_NOTATION : accepted METHOD_CALL_NOTATION = true.
Proof. vm_compute. reflexivity. Qed.
Definition CLOSURE_NOTATION : notation nat nat :=   let single := (((((lit "|") + (Child 0)) + (lit "| { ")) + (Child 1)) + (lit " }")) in
  let multi := (((((lit "|") + (Child 0)) + (lit "| {")) + (4 >> (Child 1))) ^^ (lit "}")) in (single <|> multi).
Example accepted_CLOSURE_NOTATION : accepted CLOSURE_NOTATION = true.
Proof. vm_compute. reflexivity. Qed.
Definition TIMES_NOTATION : notation nat nat := (((Child 0) + (lit " * ")) + (Child 1)).
Example accepted_TIMES_NOTATION : accepted TIMES_NOTATION = true.
Proof. vm_compute. reflexivity. Qed.
Definition method_call (obj : sdoc) (method : string) (arg : sdoc) : sdoc := node METHOD_CALL_NOTATION [obj; var method; arg].
Definition closure (v : string) (body : sdoc) : sdoc := node CLOSURE_NOTATION [var v; body].
Definition times (a b : sdoc) : sdoc := node TIMES_NOTATION [a; b].
(** iter_chain.rs:153-198. *)
Definition test_iter_chain_iter_map_collect : bool :=
  (let doc := (var "some_vec") in
  let doc := (method_call doc "iter" (var "")) in
  let doc := (method_call doc "map" (closure "elem" (times (var "elem") (var "elem")))) in
  let doc := (method_call doc "collect" (var "")) in
  ((sdoc_pp doc 80 ["some_vec.iter().map(|elem| { elem * elem }).collect()"]) &&
  ((sdoc_pp doc 50 ["some_vec.iter().map(|elem| { elem * elem })"; "    .collect()"]) &&
  ((sdoc_pp doc 40 ["some_vec.iter()"; "    .map(|elem| { elem * elem })"; "    .collect()"]) &&
  ((sdoc_pp doc 30 ["some_vec.iter()"; "    .map("; "        |elem| { elem * elem }"; "    ).collect()"]) &&
  true)))))%bool.
Example passes_iter_chain_iter_map_collect : test_iter_chain_iter_map_collect = true.
Proof. vm_compute. reflexivity. Qed.
(** iter_chain.rs:201-217. *)
Definition test_iter_chain_long_method_body : bool :=
  (let doc := (var "some_vec") in
  let doc := (method_call doc "map" (closure "elem" (times (var "elem") (var "elem")))) in
  ((sdoc_pp doc 31 ["some_vec"; "    .map("; "        |elem| { elem * elem }"; "    )"]) &&
  true))%bool.
Example passes_iter_chain_long_method_body : test_iter_chain_long_method_body = true.
Proof. vm_compute. reflexivity. Qed.
(** iter_chain.rs:220-251. *)
Definition test_iter_chain_long_methods : bool :=
  (let doc := (var "some_vec") in
  let doc := (method_call doc "call_the_map_method" (closure "elem" (var "elem"))) in
  let doc := (method_call doc "call_the_map_method" (closure "elem" (var "elem"))) in
  ((sdoc_pp doc 41 ["some_vec"; "    .call_the_map_method(|elem| { elem })"; "    .call_the_map_method(|elem| { elem })"]) &&
  ((sdoc_pp doc 35 ["some_vec"; "    .call_the_map_method("; "        |elem| { elem }"; "    )"; "    .call_the_map_method("; "        |elem| { elem }"; "    )"]) &&
  true)))%bool.
Example passes_iter_chain_long_methods : test_iter_chain_long_methods = true.
Proof. vm_compute. reflexivity. Qed.
