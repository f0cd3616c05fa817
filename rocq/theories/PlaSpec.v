(** * The PLA format (specification side)

    This file does not use the loader: it says which texts are PLA files, which
    cubes they contain, and which function the cubes stand for. *)

From stdpp Require Import list.
From Coq Require Import ZArith Ascii.

Local Open Scope Z_scope.

(** ** Characters *)

Definition is_space (x : ascii) : Prop :=
  x = "009"%char \/ x = "010"%char \/ x = "011"%char \/ x = "012"%char \/ x = "013"%char \/ x = " "%char.
Definition blank (t : list ascii) : Prop := Forall is_space t.
Definition solid (t : list ascii) : Prop := Forall (fun x => ~ is_space x) t.
(** nothing, or something that begins with a space *)
Definition spaced (t : list ascii) : Prop := match t with [] => True | x :: _ => is_space x end.
(** nothing, or something that begins with another character *)
Definition unspaced (t : list ascii) : Prop := match t with [] => True | x :: _ => ~ is_space x end.

(** ** Lines *)

Definition line_feed : ascii := "010"%char.
Definition unlines (ls : list (list ascii)) : list ascii := concat (map (fun l => l ++ [line_feed]) ls).

(** the lines of a text; the last one need not be terminated *)
Definition lines_of (t : list ascii) (ls : list (list ascii)) (terminated : bool) : Prop :=
  Forall (fun l => line_feed ∉ l) ls /\
  if terminated then t = unlines ls
  else exists ls' l, ls = ls' ++ [l] /\ l <> [] /\ t = unlines ls' ++ l.

Definition comment_line (l : list ascii) : Prop := exists w r, l = w ++ "#"%char :: r /\ blank w.

(** spaces, a key that begins with a dot, spaces, a value that neither begins nor
    ends with a space, spaces *)
Definition option_line (l k v : list ascii) : Prop :=
  exists w1 w2 w3 k', l = w1 ++ k ++ w2 ++ v ++ w3 /\ k = "."%char :: k' /\
    blank w1 /\ solid k /\ blank w2 /\ blank w3 /\
    unspaced v /\ unspaced (rev v) /\ (v <> [] -> w2 <> []) /\ (v = [] -> w3 = []).

Definition dot_line (l : list ascii) : Prop := exists w r, l = w ++ "."%char :: r /\ blank w.

(** values of a cube: 0, 1 and don't care *)
Definition spells (x : ascii) (v : option bool) : Prop :=
  match v with
  | Some false => x = "0"%char
  | Some true => x = "1"%char
  | None => x = "-"%char \/ x = "~"%char
  end.

(** spaces, a cube, spaces, the values of the functions, and possibly further words *)
Definition cube_line (l : list ascii) (cs fs : list (option bool)) : Prop :=
  exists w1 t1 w2 t2 r, l = w1 ++ t1 ++ w2 ++ t2 ++ r /\
    blank w1 /\ blank w2 /\ w2 <> [] /\ spaced r /\ (t2 = [] -> r = []) /\ t1 <> [] /\
    Forall2 spells t1 cs /\ Forall2 spells t2 fs.

(** ** Files *)

(** lines of a header with the options they contain *)
Inductive header : list (list ascii) -> list (list ascii * list ascii) -> Prop :=
| Hd_nil : header [] []
| Hd_blank l ls os : blank l -> header ls os -> header (l :: ls) os
| Hd_comment l ls os : comment_line l -> header ls os -> header (l :: ls) os
| Hd_option l ls k v os : option_line l k v -> header ls os -> header (l :: ls) ((k, v) :: os).

(** lines with cubes, up to a line that begins with a dot *)
Inductive body (nv nf : Z) : list (list ascii) -> list (list (option bool) * list (option bool)) -> Prop :=
| Bd_nil : body nv nf [] []
| Bd_dot l ls : dot_line l -> body nv nf (l :: ls) []
| Bd_blank l ls cs : blank l -> body nv nf ls cs -> body nv nf (l :: ls) cs
| Bd_cube l ls c f cs : cube_line l c f -> Z.of_nat (length c) = nv -> Z.of_nat (length f) = nf ->
    body nv nf ls cs -> body nv nf (l :: ls) ((c, f) :: cs).

(** the first value given for a key *)
Inductive given (k : list ascii) : list (list ascii * list ascii) -> list ascii -> Prop :=
| Gv_here v os : given k ((k, v) :: os) v
| Gv_later k' v' v os : k' <> k -> given k os v -> given k ((k', v') :: os) v.
Definition not_given (k : list ascii) (os : list (list ascii * list ascii)) : Prop := forall v, (k, v) ∉ os.

(** decimal numerals, most significant digit first *)
Definition digit_char (d : nat) : ascii := ascii_of_nat (48 + d).
Fixpoint decimal (ds : list nat) : Z :=
  match ds with
  | [] => 0
  | d :: ds => Z.of_nat d * 10 ^ Z.of_nat (length ds) + decimal ds
  end.
Definition numeral (t : list ascii) (n : Z) : Prop :=
  exists ds, ds <> [] /\ Forall (fun d => (d < 10)%nat) ds /\
    ((t = map digit_char ds /\ n = decimal ds) \/ (t = "-"%char :: map digit_char ds /\ n = - decimal ds)).

(** the words of a text *)
Inductive words : list ascii -> list (list ascii) -> Prop :=
| Wd_nil t : blank t -> words t []
| Wd_cons s w r ws : blank s -> solid w -> w <> [] -> spaced r -> words r ws -> words (s ++ w ++ r) (w :: ws).

Definition labels (k : list ascii) (os : list (list ascii * list ascii)) (ws : list (list ascii)) : Prop :=
  (exists v, given k os v /\ words v ws) \/ (not_given k os /\ ws = []).

Definition starts_with_cube (d : list (list ascii)) : Prop :=
  match d with [] => True | l :: _ => exists cs fs, cube_line l cs fs end.

(** the number given for a key *)
Definition number (k : list ascii) (lo hi : Z) (os : list (list ascii * list ascii)) (n : Z) : Prop :=
  exists t, given k os t /\ numeral t n /\ lo <= n <= hi.

(** Text [t] is a PLA file with options [os], the numbers [nv], [nf] and [np] for
    .i, .o and .p, and the cubes [cubes].  If there is no cube and the last line is
    not terminated it must not be a comment. *)
Definition pla_text (t : list ascii) (os : list (list ascii * list ascii)) (nv nf np : Z)
    (cubes : list (list (option bool) * list (option bool))) : Prop :=
  exists h d terminated,
    lines_of t (h ++ d) terminated /\ header h os /\ starts_with_cube d /\ body nv nf d cubes /\
    (d = [] -> terminated = true \/ forall l, last h = Some l -> ~ comment_line l) /\
    number ["."; "i"]%char (- 2 ^ 31) (2 ^ 31 - 1) os nv /\
    number ["."; "o"]%char (- 2 ^ 31) (2 ^ 31 - 1) os nf /\
    number ["."; "p"]%char (- 2 ^ 63) (2 ^ 63 - 1) os np.

(** ** The function of a list of cubes *)

(** every literal of the cube holds; variable [i] is the [i]-th character *)
Definition covers_point (cs : list (option bool)) (rho : nat -> nat) : bool :=
  forallb (fun p => match snd p with
                    | Some true => Nat.eqb (rho (fst p)) 1
                    | Some false => Nat.eqb (rho (fst p)) 0
                    | None => true
                    end) (imap (fun i x => (i, x)) cs).

(** some cube with a 1 in column [fi] covers the point *)
Definition sum_of_products (ls : list (list (option bool) * list (option bool))) (fi : nat) (rho : nat -> nat) : Z :=
  if existsb (fun p => match snd p !! fi with Some (Some true) => covers_point (fst p) rho | _ => false end) ls
  then 1 else 0.
