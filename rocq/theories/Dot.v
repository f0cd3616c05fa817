(** * to_dot_graph: node_manager.hpp:687-709, 1082-1198, for_each_node:
    node_manager.hpp:764-793; called by diagram_manager.hpp:1890-1904

    The stream is the string written to it.  std::to_string of an integer is
    the decimal notation [pretty]; the address of a node is [c_ptr]. *)

From stdpp Require Import gmap list strings pretty.
From Coq Require Import ZArith.
From Verif Require Import Base NodeManager Tools Queries.

Local Open Scope string_scope.
Local Open Scope list_scope.

(** the four vectors of node_manager.hpp:1120-1123 *)
Record dot := Dot {
  d_labels : list string;
  d_ranks : list (list string);
  d_arcs : list string;
  d_squares : list string
}.

Section dot.
Context (c : cfg).
(** std::is_same_v<Degree, degrees::fixed<2>> *)
Context (binary : bool).

(** node_manager.hpp:1089-1099 make_label *)
Definition make_label (n : node) : string :=
  match n_body n with
  | Term v => if (v =? Undef)%Z then "*" else pretty v
  | Int i _ => "x" +:+ pretty i
  end.

(** node_manager.hpp:1101-1102 get_id_str *)
Definition id_str (a : positive) : string := pretty (c_ptr c a).

(** node_manager.hpp:1104-1117 output_range *)
Fixpoint output_range (range : list string) (sep : string) : string :=
  match range with
  | [] => ""
  | [x] => x
  | x :: range => x +:+ sep +:+ output_range range sep
  end.

(** node_manager.hpp:1145-1167: the arc to the son at position sonOrder *)
Definition arc_str (a : positive) (sonOrder : nat) (son : positive) : string :=
  if binary then
    id_str a +:+ " -> " +:+ id_str son +:+ " [style = " +:+ (if (0 =? sonOrder)%nat then "dashed" else "solid") +:+ "];"
  else
    id_str a +:+ " -> " +:+ id_str son +:+ " [label = " +:+ pretty sonOrder +:+ "];".

(** rankGroups[l].emplace_back(x) *)
Definition rank_push (ranks : list (list string)) (l : nat) (x : string) : M (list (list string)) :=
  let* r := of_opt EOob (ranks !! l) in ret (<[l := r ++ [x]]> ranks).

(** node_manager.hpp:1125-1170, the operation of the traversal.  The loop of
    for_each_son runs over the list of the sons, as in [trav_pre]. *)
Definition dot_visit (d : dot) (a : positive) : M dot :=
  let* level := get_level c a in
  let* n := getn a in
  let label := id_str a +:+ " [label = """ +:+ make_label n +:+ """, tooltip = """ +:+ pretty (n_refs n) +:+ """];" in
  let labels := d_labels d ++ [label] in
  match n_body n with
  | Term _ =>
      let* ranks := rank_push (d_ranks d) (length (d_ranks d) - 1) (id_str a +:+ ";") in
      ret (Dot labels ranks (d_arcs d) (d_squares d ++ [id_str a]))
  | Int _ sons =>
      let* ranks := rank_push (d_ranks d) level (id_str a +:+ ";") in
      ret (Dot labels ranks (d_arcs d ++ imap (arc_str a) sons) (d_squares d))
  end.

(** levelCount = 1 + varCount groups *)
Definition dot_start : dot := Dot [] (replicate (1 + nvars c) []) [] [].

Definition newline : string := String (Ascii.ascii_of_nat 10) "".

(** node_manager.hpp:1187-1195 *)
Fixpoint dot_groups (ranks : list (list string)) : string :=
  match ranks with
  | [] => ""
  | [] :: ranks => dot_groups ranks
  | r :: ranks => "    { rank = same; " +:+ output_range r " " +:+ " }" +:+ newline +:+ dot_groups ranks
  end.

(** node_manager.hpp:1172-1198 *)
Definition dot_output (d : dot) : string :=
  "digraph DD {" +:+ newline +:+
  "    node [shape = square] " +:+ output_range (d_squares d) " " +:+ ";" +:+ newline +:+
  "    node [shape = circle];" +:+ newline +:+ newline +:+
  "    " +:+ output_range (d_labels d) (newline +:+ "    ") +:+ newline +:+ newline +:+
  "    " +:+ output_range (d_arcs d) (newline +:+ "    ") +:+ newline +:+ newline +:+
  dot_groups (d_ranks d) +:+ newline +:+ "}" +:+ newline.

(** to_dot_graph of a diagram: node_manager.hpp:698-709 *)
Definition to_dot_graph (a : positive) : M string :=
  let* d := traverse_pre c dot_visit dot_start a in ret (dot_output d).

(** for_each_node: node_manager.hpp:764-793.  The tables by index, the chains in
    the order of the buckets, then the terminals; specials_ is not visited. *)
Definition all_nodes : M (list positive) :=
  let* tabs := gets s_tabs in
  let* terms := gets s_terms in
  ret (concat (map (fun t => concat (t_buckets t)) tabs) ++ omap id terms).

(** to_dot_graph of the manager: node_manager.hpp:687-696 *)
Definition to_dot_graph_all : M string :=
  let* l := all_nodes in
  let* d := foldM dot_visit dot_start l in ret (dot_output d).
End dot.
