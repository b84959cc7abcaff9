(** tests/standard/test_cases: json.rs and styles.rs, run on the model. *)
From Verif Require Export TestSuite.
From Coq Require Import String DecimalString DecimalN.
Local Notation length := List.length.

Set Implicit Arguments.
Local Open Scope string_scope.
Local Open Scope test_scope.

(** json.rs:204-218 [favorites_array] and [make_object]. *)
Definition favorites_array : making := (jarray [(jstring "chocolate"); (jstring "lemon"); (jstring "almond")]).
Definition make_object : making := (jobject [(jpair "Name" (jstring "Alice")); (jpair "Age" (jnumber "42")); (jpair "Favorites" favorites_array)]).
(** json.rs:16-19. *)
Definition test_json_constants : bool :=
  (let doc := (jarray [(jbool true); jnull; (jbool false)]) in
  ((tree_pp doc 80 ["[true, null, false]"]) &&
  true))%bool.
Example passes_json_constants : test_json_constants = true.
Proof. vm_compute. reflexivity. Qed.
(** json.rs:22-39. *)
Definition test_json_flow : bool :=
  (let doc := (jroots [(jcomment "Truth is much too complicated to allow anything but approximations. — John Von Neumann"); (jarray [(jbool true); (jbool false)])]) in
  ((tree_pp doc 40 ["// Truth is much too complicated to"; "// allow anything but approximations. —"; "// John Von Neumann"; "[true, false]"]) &&
  true))%bool.
Example passes_json_flow : test_json_flow = true.
Proof. vm_compute. reflexivity. Qed.
(** json.rs:42-129. *)
Definition test_json_seek : bool :=
  (let doc := (jobject [(jpair "Name" (jstring "Alice")); (jpair "Age" (jnumber "42"))]) in
  let refn := doc in
  ((tree_pp refn 28 ["{""Name"": ""Alice"", ""Age"": 42}"]) &&
  ((tree_pp refn 27 ["{"; "    ""Name"": ""Alice"","; "    ""Age"": 42"; "}"]) &&
  ((tree_seek refn 27 [] ["({"; "    ""Name"": ""Alice"","; "    ""Age"": 42"; "})"]) &&
  ((tree_seek refn 27 [0] ["{"; "    (""Name"": ""Alice""),"; "    ""Age"": 42"; "}"]) &&
  ((tree_seek refn 27 [0; 0] ["{"; "    (""Name""): ""Alice"","; "    ""Age"": 42"; "}"]) &&
  ((tree_seek refn 27 [1] ["{"; "    ""Name"": ""Alice"","; "    (""Age"": 42)"; "}"]) &&
  ((tree_seek refn 27 [1; 1] ["{"; "    ""Name"": ""Alice"","; "    ""Age"": (42)"; "}"]) &&
  true))))))))%bool.
Example passes_json_seek : test_json_seek = true.
Proof. vm_compute. reflexivity. Qed.
(** json.rs:132-208. *)
Definition test_json_focus : bool :=
  (let doc := (jobject [(jpair "Cats" (jarray [])); (jpair "Dogs" (jarray []))]) in
  let refn := doc in
  ((tree_focus refn 17 [1; 1] FStart ["{"; "    ""Cats"": [],"; "    ""Dogs"": |[]"; "}"]) &&
  ((tree_focus refn 17 [1; 1] FEnd ["{"; "    ""Cats"": [],"; "    ""Dogs"": []|"; "}"]) &&
  ((tree_focus refn 17 [1; 1] FMark ["{"; "    ""Cats"": [],"; "    ""Dogs"": [|]"; "}"]) &&
  ((tree_focus refn 17 [1; 0] (FText 2) ["{"; "    ""Cats"": [],"; "    ""Do|gs"": []"; "}"]) &&
  ((tree_focus refn 17 [1; 0] (FText 20) ["{"; "    ""Cats"": [],"; "    ""Dogs|"": []"; "}"]) &&
  true))))))%bool.
Example passes_json_focus : test_json_focus = true.
Proof. vm_compute. reflexivity. Qed.
(** json.rs:194-202: [#[should_panic]]. *)
Definition test_json_invalid_path : bool :=
  with_tree (jobject [jpair "x" (jnumber "1"); jpair "y" (jnumber "2")])
    (fun t => panics (@assert_pp_seek tpd test_env 1000 t 80 [0; 2] [])).
Example passes_json_invalid_path : test_json_invalid_path = true.
Proof. vm_compute. reflexivity. Qed.
(** json.rs:237-250. *)
Definition test_json_flow_wrapped_array : bool :=
  (((tree_pp favorites_array 24 ["["; "    ""chocolate"","; "    ""lemon"","; "    ""almond"""; "]"]) &&
  true))%bool.
Example passes_json_flow_wrapped_array : test_json_flow_wrapped_array = true.
Proof. vm_compute. reflexivity. Qed.
(** json.rs:253-280. *)
Definition test_json_array_of_objects : bool :=
  (((tree_pp (jarray [make_object; make_object]) 40 ["["; "    {"; "        ""Name"": ""Alice"","; "        ""Age"": 42,"; "        ""Favorites"": ["; "            ""chocolate"","; "            ""lemon"","; "            ""almond"""; "        ]"; "    },"; "    {"; "        ""Name"": ""Alice"","; "        ""Age"": 42,"; "        ""Favorites"": ["; "            ""chocolate"","; "            ""lemon"","; "            ""almond"""; "        ]"; "    }"; "]"]) &&
  true))%bool.
Example passes_json_array_of_objects : test_json_array_of_objects = true.
Proof. vm_compute. reflexivity. Qed.
(** json.rs:283-311. *)
Definition test_json_big_object : bool :=
  (((tree_pp make_object 27 ["{"; "    ""Name"": ""Alice"","; "    ""Age"": 42,"; "    ""Favorites"": ["; "        ""chocolate"","; "        ""lemon"","; "        ""almond"""; "    ]"; "}"]) &&
  ((tree_pp make_object 60 ["{"; "    ""Name"": ""Alice"","; "    ""Age"": 42,"; "    ""Favorites"": [""chocolate"", ""lemon"", ""almond""]"; "}"]) &&
  true)))%bool.
Example passes_json_big_object : test_json_big_object = true.
Proof. vm_compute. reflexivity. Qed.
(** json.rs:314-335. *)
Definition test_json_comment_line_breaks : bool :=
  (let array := (jarray [(jnumber "1"); (jcomment "two"); (jnumber "2"); (jnumber "3")]) in
  ((tree_pp array 80 ["["; "    1,"; "    // two"; "    2,"; "    3"; "]"]) &&
  true))%bool.
Example passes_json_comment_line_breaks : test_json_comment_line_breaks = true.
Proof. vm_compute. reflexivity. Qed.
(** json.rs:338-388. *)
Definition test_json_comment_commas : bool :=
  (let array := (jarray [(jnumber "1"); (jcomment "two"); (jnumber "2"); (jcomment "three?"); (jcomment "three."); (jnumber "3")]) in
  ((tree_pp array 10 ["["; "    1,"; "    // two"; "    2,"; "    // three?"; "    // three."; "    3"; "]"]) &&
  let array := (jarray [(jnumber "1"); (jcomment "two"); (jnumber "2"); (jnumber "3"); (jcomment "^ three?"); (jcomment "^ three.")]) in
  ((tree_pp array 20 ["["; "    1,"; "    // two"; "    2,"; "    3"; "    // ^ three?"; "    // ^ three."; "]"]) &&
  true)))%bool.
Example passes_json_comment_commas : test_json_comment_commas = true.
Proof. vm_compute. reflexivity. Qed.

(** json.rs:11-14. *)
Definition NUMERALS : list string := ["one"; "two"; "three"; "four"; "five"; "six"; "seven"; "eight"; "nine"; "ten"; "eleven"; "twelve"; "thirteen"; "fourteen"; "fifteen"; "sixteen"].
(** [format!("{}", n as f64)], for a small [n]. *)
Definition decimal (n : N) : string := NilEmpty.string_of_uint (N.to_uint n).
(** json.rs:377-390 [make_json_tree]. *)
Definition json_tree_node (children : list making) (id : N) (size : nat) : making :=
  jobject [
    jpair "id" (jnumber (decimal id));
    jpair "children_lengths" (jarray (map (fun n => jstring (append "child_number_" n)) (firstn size NUMERALS)));
    jpair "number_of_children" (jnumber (decimal (N.of_nat size)));
    jpair "children" (jarray children)].
Fixpoint json_tree_children (size : nat) : N -> list making :=
  match size with
  | O => fun _ => []
  | S n => fun id =>
      (json_tree_children n id ++
       [(let id' := 2 ^ N.of_nat n + id in fun c => json_tree_node (json_tree_children n id') id' n c)])%list%N
  end.
Definition make_json_tree (id : N) (size : nat) : making :=
  json_tree_node (json_tree_children size id) id size.
(** json.rs:393-431, the little tree. *)
Definition test_little_json_tree : bool :=
  (let little_tree := (make_json_tree 0%N 2) in
  ((tree_pp little_tree 80 ["{"; "    ""id"": 0,"; "    ""children_lengths"": [""child_number_one"", ""child_number_two""],"; "    ""number_of_children"": 2,"; "    ""children"": ["; "        {"; "            ""id"": 1,"; "            ""children_lengths"": [],"; "            ""number_of_children"": 0,"; "            ""children"": []"; "        },"; "        {"; "            ""id"": 2,"; "            ""children_lengths"": [""child_number_one""],"; "            ""number_of_children"": 1,"; "            ""children"": ["; "                {"; "                    ""id"": 3,"; "                    ""children_lengths"": [],"; "                    ""number_of_children"": 0,"; "                    ""children"": []"; "                }"; "            ]"; "        }"; "    ]"; "}"]) &&
  true))%bool.
Example passes_little_json_tree : test_little_json_tree = true.
Proof. vm_compute. reflexivity. Qed.
(** json.rs:433-456, the big tree (1.3 million nodes). *)
Definition test_big_json_tree : bool :=
  (let big_tree := (make_json_tree 0%N 16) in
  ((tree_region big_tree 120 [3; 1; 15; 3; 1; 10] FStart 10 ["                                }"; "                            ]"; "                        }"; "                    ]"; "                },"; "                {"; "                    ""id"": 33792,"; "                    ""children_lengths"": ["; "                        ""child_number_one"","; "                        ""child_number_two"","]) &&
  true))%bool.
Example passes_big_json_tree : test_big_json_tree = true.
Proof. vm_compute. reflexivity. Qed.

(** ** styles.rs *)
(** styles.rs:41-58 [style_char]. *)
Definition style_char (s : basic_style) : char :=
  match bs_color s, bs_bold s with
  | White, false => 119 | White, true => 87 | Black, false => 107 | Black, true => 75
  | Red, false => 114 | Red, true => 82 | Green, false => 103 | Green, true => 71
  | Yellow, false => 121 | Yellow, true => 89 | Blue, false => 98 | Blue, true => 66
  | Magenta, false => 109 | Magenta, true => 77 | Cyan, false => 99 | Cyan, true => 67
  end%N.
(** styles.rs:66-77 [push_line]: each character with its style. *)
Definition rich_line (l : @line tpd) : list (char * basic_style) :=
  flat_map (fun s : @segment tpd => map (fun ch => (ch, seg_style s)) (seg_str s)) l.
(** styles.rs:21-38 [print]. *)
Definition print_rich (m : making) (w : N) (style : basic_style) : option (list (list (char * basic_style))) :=
  match m 0%N with
  | Ok (t, _) =>
      match (
        '(upward, focused, downward) <- @pretty_print tpd test_env 1000 t w [] FStart (Some style) ;;
        above <- collect 1000 (up_next 1000) upward ;;
        below <- collect 1000 (down_next 1000) downward ;;
        Ok (rev above ++ [focused_to_line focused] ++ below)%list) with
      | Ok ls => Some (map rich_line ls)
      | _ => None
      end
  | _ => None
  end.
(** styles.rs:104-127 [make_json_object]. *)
Definition make_json_object : making :=
  with_style_override "close" (bs_with_color bs_default Blue)
  (with_style_override "open" (bs_with_color bs_default Cyan)
  (jobject [
    jpair "Name" (with_style (bs_make_bold bs_default) (jstring "Alice"));
    jpair "Age" (jnumber "42");
    jpair "Pets" (jarray []);
    jpair "Favorites"
      (with_style_override "close" (bs_with_color bs_default Blue)
      (with_style_override "open" (bs_with_color bs_default Cyan)
      (with_style (bs_make_bold (bs_with_color bs_default Red))
      (jarray [
        jstring "chocolate";
        with_style (bs_with_color bs_default Yellow) (jstring "lemon");
        jstring "almond"]))))])).
(** styles.rs:129-180: the texts and the styles at width 27, and at width 90. *)
Example passes_json_styles_27 :
  option_map (map (map fst)) (print_rich make_json_object 27 bs_default) = Some (map u [
    "{";
    "    ""Name"": ""Alice"",";
    "    ""Age"": 42,";
    "    ""Pets"": [],";
    "    ""Favorites"": [";
    "        ""chocolate"",";
    "        ""lemon"",";
    "        ""almond""";
    "    ]";
    "}"]) /\
  option_map (map (map (fun x => style_char (snd x)))) (print_rich make_json_object 27 bs_default) = Some (map u [
    "c";
    "wwwwmmmmmmwwMMMMMMMw";
    "wwwwmmmmmwwbbw";
    "wwwwmmmmmmwwwww";
    "wwwwmmmmmmmmmmmwwC";
    "wwwwRRRRMMMMMMMMMMMR";
    "wwwwRRRRMMMMMMMR";
    "wwwwRRRRMMMMMMMM";
    "wwwwB";
    "b"]).
Proof. split; vm_compute; reflexivity. Qed.
Example passes_json_styles_90 :
  option_map (map (map fst)) (print_rich make_json_object 90 bs_default) = Some (map u [
    "{""Name"": ""Alice"", ""Age"": 42, ""Pets"": [], ""Favorites"": [""chocolate"", ""lemon"", ""almond""]}"]) /\
  option_map (map (map (fun x => style_char (snd x)))) (print_rich make_json_object 90 bs_default) = Some (map u [
    "cmmmmmmwwMMMMMMMwwmmmmmwwbbwwmmmmmmwwwwwwmmmmmmmmmmmwwCMMMMMMMMMMMRRMMMMMMMRRMMMMMMMMBb"]).
Proof. split; vm_compute; reflexivity. Qed.
