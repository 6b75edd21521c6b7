(** * test/Graph.cpp: Graph::prettyPrint

    Strings are lists of characters.  [ss << x] for an int or size_t writes the
    decimal digits without grouping (the classic locale, which the program never
    changes). *)
From Coq Require Import Strings.String Strings.Ascii.
From Coq Require Import Numbers.DecimalString.
From Verif Require Import Base ProblemDefine.

Section Print.
Context {D : Type}.

Definition chars (s : string) : list ascii := list_ascii_of_string s.

(** [ss << x] with an integer *)
Definition show (z : Z) : list ascii := chars (NilZero.string_of_int (Z.to_int z)).
Definition show_size (x : nat) : list ascii := show (Z.of_nat x).

(** Graph.cpp:16-21 *)
Definition print_node (m : MuLimit D) : list ascii :=
  chars "{" ++ chars "l:" ++ show (m_l m) ++ chars "," ++ chars "u:" ++ show (m_u m) ++ chars "," ++ chars "F:#" ++ chars "},".

(** Graph.cpp:24-31 *)
Definition print_edge (o : OmegaLimit D) : list ascii :=
  chars "{" ++ chars "i:" ++ show_size (o_i o) ++ chars "," ++ chars "j:" ++ show_size (o_j o) ++ chars "," ++
  chars "l:" ++ show (o_l o) ++ chars "," ++ chars "u:" ++ show (o_u o) ++ chars "," ++ chars "B:#" ++ chars "},".

(** Graph.cpp:8-35; the new value of [out] *)
Definition pretty_print (info : list ascii) (n m : Z) (node : list (MuLimit D)) (edge : list (OmegaLimit D)) (out : list ascii) : list ascii :=
  match info with
  | _ :: _ => out ++ info
  | [] =>
      out ++ (chars "{" ++ chars "n: " ++ show n ++ chars "; " ++
              chars "{" ++ flat_map print_node node ++ chars "}; " ++
              chars "m: " ++ show m ++ chars "; " ++
              chars "{" ++ flat_map print_edge edge ++ chars "}; " ++ chars "}")
  end.
End Print.
