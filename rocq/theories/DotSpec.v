(** * The text printed by to_dot_graph, as a user reads it

    A graph is a list of labelled nodes, a list of arcs with the position of the
    son, the list of the square nodes and the groups drawn on the same height. *)

From stdpp Require Import strings pretty list.
From Coq Require Import ZArith Ascii.
From Verif Require Import Base.

Local Open Scope string_scope.
Local Open Scope list_scope.

Inductive name := Var (i : nat) | Val (v : Z).

Record graph := Graph {
  g_labels : list (N * name * N);   (* address, what is written in it, reference count *)
  g_arcs : list (N * N * nat);      (* from, to, position of the son *)
  g_squares : list N;
  g_ranks : list (list N)
}.

(** ** The text *)

Definition nl : ascii := ascii_of_nat 10.

(** every piece followed by [t] *)
Fixpoint ended (t : ascii) (l : list string) : string :=
  match l with [] => "" | x :: l => x +:+ String t (ended t l) end.

(** the pieces with a space between each two *)
Fixpoint spaced (l : list string) : string :=
  match l with [] => "" | [x] => x | x :: l => x +:+ " " +:+ spaced l end.

Definition name_text (n : name) : string :=
  match n with
  | Var i => "x" +:+ pretty i
  | Val v => if decide (v = Undef) then "*" else pretty v
  end.

Definition label_line (l : N * name * N) : string :=
  pretty (fst (fst l)) +:+ " [label = """ +:+ name_text (snd (fst l)) +:+ """, tooltip = """ +:+ pretty (snd l) +:+ """];".

Definition arc_line (binary : bool) (a : N * N * nat) : string :=
  pretty (fst (fst a)) +:+ " -> " +:+ pretty (snd (fst a)) +:+
  (if binary then if decide (snd a = 0%nat) then " [style = dashed];" else " [style = solid];"
   else " [label = " +:+ pretty (snd a) +:+ "];").

Definition rank_line (r : list N) : string :=
  "    { rank = same; " +:+ spaced (map (fun x => pretty x +:+ ";") r) +:+ " }".

(** a section: its lines are indented; an empty one is a line with the indentation only *)
Definition indented (l : list string) : list string :=
  match l with [] => ["    "] | _ => map (fun x => "    " +:+ x) l end.

Definition text (binary : bool) (g : graph) : string :=
  ended nl (
    ["digraph DD {"; "    node [shape = square] " +:+ spaced (map pretty (g_squares g)) +:+ ";"; "    node [shape = circle];"; ""]
    ++ indented (map label_line (g_labels g)) ++ [""]
    ++ indented (map (arc_line binary) (g_arcs g)) ++ [""]
    ++ map rank_line (g_ranks g) ++ [""; "}"]).

(** ** Reading a value off the graph: from a node follow the arc of the value of
    its variable until a node with a value is found. *)
Inductive reads (g : graph) (rho : nat -> nat) : N -> Z -> Prop :=
| reads_val x v n : (x, Val v, n) ∈ g_labels g -> reads g rho x v
| reads_var x i n y v : (x, Var i, n) ∈ g_labels g -> (x, y, rho i) ∈ g_arcs g -> reads g rho y v -> reads g rho x v.

(** ** The picture of a list of nodes: [L] gives the body of a node, [R] its
    reference count, [ptr] its address.  One group for each variable in the
    order of the levels, then the terminals; groups that would be empty are
    left out. *)
Section picture.
Context (ptr : positive -> N) (L : positive -> option body) (R : positive -> N) (order : list nat).

Definition name_of (a : positive) : name :=
  match L a with Some (Int i _) => Var i | Some (Term v) => Val v | None => Val 0 end.
Definition arcs_of (a : positive) : list (N * N * nat) :=
  match L a with Some (Int _ sons) => imap (fun k b => (ptr a, ptr b, k)) sons | _ => [] end.
Definition terminal (a : positive) : bool := match L a with Some (Term _) => true | _ => false end.
Definition of_var (i : nat) (a : positive) : bool := match L a with Some (Int j _) => Nat.eqb j i | _ => false end.

Definition terminals (D : list positive) : list N := map ptr (List.filter terminal D).
Definition groups (D : list positive) : list (list N) :=
  map (fun i => map ptr (List.filter (of_var i) D)) order ++ [terminals D].

Definition picture (D : list positive) : graph :=
  Graph (map (fun a => (ptr a, name_of a, R a)) D)
        (concat (map arcs_of D))
        (terminals D)
        (List.filter (fun r => negb (Nat.eqb (length r) 0)) (groups D)).
End picture.
