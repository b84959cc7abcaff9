(** The crate's own unit tests (tests/standard/test_cases), run on the model.

    These are tests of the model, not theorems about it: the crate passes them, so
    the model has to.  This file has what they need; the tests are in
    TestSuite1.v (basics.rs, children.rs, regressions.rs, flow_wrap.rs,
    ruby_loop.rs, iter_chain.rs), TestSuite2.v (json.rs, styles.rs) and
    TestSuite3.v (panes.rs).  The test of tests/standard/oracle_tests.rs is in
    Harness.v (C72); let_list.rs is not compiled, as mod.rs does not name it. *)
From Verif Require Export Harness PlainText Examples JsonProgram.
From Coq Require Import String Ascii.
Local Notation length := List.length.

Set Implicit Arguments.

(** A string of the test, which is in UTF-8. *)
Fixpoint bytes (s : string) : list N :=
  match s with EmptyString => [] | String c s => N_of_ascii c :: bytes s end.
Fixpoint utf8 (l : list N) : str :=
  (match l with
   | [] => []
   | a :: l1 =>
       if a <? 128 then a :: utf8 l1
       else match l1 with
       | [] => []
       | b :: l2 =>
           if a <? 224 then ((a - 192) * 64 + (b - 128)) :: utf8 l2
           else match l2 with
           | [] => []
           | c :: l3 => ((a - 224) * 4096 + (b - 128) * 64 + (c - 128)) :: utf8 l3
           end
       end
   end)%N.
Definition u (s : string) : str := utf8 (bytes s).

(** unicode_width, as far as the tests need it: the CJK characters are wide. *)
Definition wide_char (c : char) : bool := ((11904 <=? c) && (c <=? 40959))%N.
Definition test_env : Env := {|
  usize_width := fun s => fold_right N.add 0%N (map (fun c => if wide_char c then 2%N else 1%N) s);
  char_full_width := wide_char;
  ovf := true |}.
#[export] Existing Instance test_env.

(** flow_wrap.rs:154-155. *)
Example wide_chars : str_width (u "始") = 2%N /\ str_width (u "端") = 2%N.
Proof. split; reflexivity. Qed.

(** ** Notations (src/notation_constructors.rs) *)
Section Dsl.
Context {L C : Type}.
Notation nt := (notation L C).
Definition lit (s : string) : nt := Literal (u s).
Definition empty : nt := Empty.
Definition nl : nt := Newline.
Definition eol : nt := EndOfLine.
Definition indent (s : string) (l : option L) (x : nt) : nt := Indent (u s) l x.
End Dsl.
Declare Scope test_scope.
Notation "a + b" := (n_add a b) (at level 50, left associativity) : test_scope.
Notation "w >> a" := (n_shr w a) (at level 51, right associativity) : test_scope.
Notation "a ^^ b" := (n_xor a b) (at level 52, left associativity) : test_scope.
Notation "a <|> b" := (n_or a b) (at level 53, left associativity) : test_scope.

Definition accepted {L C} (x : notation L C) : bool := match validate x with Ok _ => true | _ => false end.

(** ** Did an assertion pass? *)
Definition passes {pd : PrettyDoc} (r : @pres pd unit) : bool := match r with Ok _ => true | _ => false end.
Definition panics {pd : PrettyDoc} (r : @pres pd unit) : bool := match r with Panic _ => true | _ => false end.
Definition all_pass (l : list bool) : bool := forallb (fun b => b) l.

(** ** Simple documents: [SimpleDoc::new] also validates. *)
Definition cheat_pp (x : notation unit unit) (w : N) (expected : list string) : bool :=
  passes (@assert_pp simple_doc test_env 1000 x w (map u expected)).
Definition simple_pp (x : notation unit unit) (w : N) (expected : list string) : bool :=
  (accepted x && cheat_pp x w expected)%bool.

(** ** Trees of nodes with distinct ids (Examples.v) *)
Fixpoint number (d : sdoc) (c : nat) : sdoc * nat :=
  match d with
  | Leaf _ n s => (Leaf c n s, S c)
  | Node _ n ks =>
      let '(ks, c) := (fix go (ks : list sdoc) (c : nat) : list sdoc * nat :=
        match ks with
        | [] => ([], c)
        | k :: ks => let '(k, c) := number k c in let '(ks, c) := go ks c in (k :: ks, c)
        end) ks c in
      (Node c n ks, S c)
  end.
Definition leaf (n : notation nat nat) (s : string) : sdoc := Leaf 0 n (u s).
Definition node (n : notation nat nat) (ks : list sdoc) : sdoc := Node 0 n ks.
Definition sdoc_pp (d : sdoc) (w : N) (expected : list string) : bool :=
  passes (@assert_pp spd test_env 1000 (fst (number d 0)) w (map u expected)).
Definition sdoc_seek (d : sdoc) (w : N) (path : list nat) (expected : list string) : bool :=
  passes (@assert_pp_seek spd test_env 1000 (fst (number d 0)) w path (map u expected)).

(** ** Trees (src/doc_examples/tree.rs): computations that use the counter of ids *)
Definition tpd : PrettyDoc := tree_doc (ts := basic_tree_style).
Definition making : Type := N -> res Empty_set (json_tree * N).
Fixpoint make_all (l : list making) (c : N) : res Empty_set (list json_tree * N) :=
  match l with
  | [] => Ok ([], c)
  | m :: l => '(t, c) <- m c ;; '(ts, c) <- make_all l c ;; Ok (t :: ts, c)
  end.
Definition new_text (n : tree_notation) (s : string) : making := tree_new_text true n (u s).
Definition new_branch (n : tree_notation) (l : list making) : making := fun c =>
  '(ts, c) <- make_all l c ;; tree_new_branch true n ts c.
Definition changed (f : json_tree -> json_tree) (m : making) : making := fun c => '(t, c) <- m c ;; Ok (f t, c).
Definition into_comment : making -> making := changed tree_into_comment.
Definition with_style (s : basic_style) : making -> making := changed (tree_with_style (ts := basic_tree_style) s).
Definition with_style_override (l : string) (s : basic_style) : making -> making :=
  changed (tree_with_override (ts := basic_tree_style) (u l) s).

(** json.rs. *)
Definition jarray (l : list making) : making := fun c => '(ts, c) <- make_all l c ;; json_array true ts c.
Definition jobject (l : list making) : making := fun c => '(ts, c) <- make_all l c ;; json_object true ts c.
Definition jroots (l : list making) : making := fun c => '(ts, c) <- make_all l c ;; json_roots true ts c.
Definition jpair (key : string) (value : making) : making := fun c => '(t, c) <- value c ;; json_object_pair true (u key) t c.
Definition jstring (s : string) : making := json_string true (u s).
Definition jnumber (s : string) : making := json_number true (u s).
Definition jbool (b : bool) : making := json_bool true b.
Definition jnull : making := json_null true.
Definition jcomment (s : string) : making := json_comment true (fun c => N.eqb c 32) (u s).

Definition with_tree (m : making) (k : json_tree -> bool) : bool := match m 0%N with Ok (t, _) => k t | _ => false end.
Definition tree_pp (m : making) (w : N) (expected : list string) : bool :=
  with_tree m (fun t => passes (@assert_pp tpd test_env 1000 t w (map u expected))).
Definition tree_seek (m : making) (w : N) (path : list nat) (expected : list string) : bool :=
  with_tree m (fun t => passes (@assert_pp_seek tpd test_env 1000 t w path (map u expected))).
Definition tree_focus (m : making) (w : N) (path : list nat) (ft : focus_target) (expected : list string) : bool :=
  with_tree m (fun t => passes (@assert_pp_focus tpd test_env 1000 t w path ft (map u expected))).
Definition tree_region (m : making) (w : N) (path : list nat) (ft : focus_target) (rows : nat) (expected : list string) : bool :=
  with_tree m (fun t => passes (@assert_pp_region tpd test_env 1000 t w path ft rows (map u expected))).
