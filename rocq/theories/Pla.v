(** * PLA files: pla_file.hpp, tools.hpp:44-59, diagram_manager.hpp:1046-1121

    Text is a list of characters.  The file system is not modelled: [load_file]
    receives the contents of a file that could be opened.  Memory is modelled by
    the parameter [mem], which says for how many lines [vector::reserve] succeeds;
    otherwise it throws. *)

From stdpp Require Import list.
From Coq Require Import ZArith Ascii.
From Verif Require Import Ops World.

Local Open Scope Z_scope.

Notation char := ascii (only parsing).
Notation text := (list ascii) (only parsing).

(** ** bool_cube: pla_file.hpp:20-46 *)

Record byte := Byte { b0 : Z; b1 : Z; b2 : Z; b3 : Z }.
Record bool_cube := BoolCube { bc_size : Z; bc_values : list byte }.

(** pla_file.hpp:25 *)
Definition DontCare : Z := 3.

(** pla_file.hpp:149-153; the division truncates *)
Definition new_cube (size : Z) : bool_cube :=
  BoolCube size (replicate (Z.to_nat (Z.quot size 4 + 1)) (Byte 0 0 0 0)).

(** pla_file.hpp:160-179; [None] is a failed assertion or an access out of bounds *)
Definition cube_get (b : bool_cube) (i : Z) : option Z :=
  let k := Z.quot i 4 in
  if (0 <=? k) && (k <? Z.of_nat (length (bc_values b))) then
    match bc_values b !! Z.to_nat k with
    | Some y =>
        let r := Z.rem i 4 in
        Some (if r =? 0 then b0 y else if r =? 1 then b1 y else if r =? 2 then b2 y
              else if r =? 3 then b3 y else -1)
    | None => None
    end
  else None.

(** pla_file.hpp:181-206; the value is stored in two bits *)
Definition cube_set (b : bool_cube) (i v : Z) : option bool_cube :=
  let k := Z.quot i 4 in
  if (0 <=? k) && (k <? Z.of_nat (length (bc_values b))) && ((v =? 0) || (v =? 1) || (v =? DontCare)) then
    match bc_values b !! Z.to_nat k with
    | Some y =>
        let r := Z.rem i 4 in
        let w := Z.land v 3 in
        let y' := if r =? 0 then Byte w (b1 y) (b2 y) (b3 y)
                  else if r =? 1 then Byte (b0 y) w (b2 y) (b3 y)
                  else if r =? 2 then Byte (b0 y) (b1 y) w (b3 y)
                  else if r =? 3 then Byte (b0 y) (b1 y) (b2 y) w
                  else y in
        Some (BoolCube (bc_size b) (<[Z.to_nat k := y']> (bc_values b)))
    | None => None
    end
  else None.

(** ** Text *)

(** isspace in the C locale: horizontal tab, line feed, vertical tab, form feed,
    carriage return and blank.  Its argument is undefined for negative characters
    (codes from 128, where char is signed); here they are not spaces. *)
Definition isspace (x : char) : bool :=
  let n := N_of_ascii x in ((9 <=? n) && (n <=? 13) || (n =? 32))%N.

(** find_if_not and find_if (tools.hpp:168-198) with isspace split a range:
    the part before the position found and the part from it on *)
Fixpoint skip_spaces (t : text) : text :=
  match t with
  | x :: r => if isspace x then skip_spaces r else t
  | [] => []
  end.
Fixpoint word (t : text) : text :=
  match t with
  | x :: r => if isspace x then [] else x :: word r
  | [] => []
  end.
Fixpoint after_word (t : text) : text :=
  match t with
  | x :: r => if isspace x then t else after_word r
  | [] => []
  end.

(** trailing spaces removed: pla_file.hpp:273-278 *)
Definition trim_end (t : text) : text := rev (skip_spaces (rev t)).

(** to_words: pla_file.hpp:211-229.  Every round consumes a character or ends,
    so as many rounds as there are characters are enough. *)
Fixpoint to_words_loop (fuel : nat) (t : text) : list text :=
  match fuel with
  | O => []
  | S fuel =>
      match t with
      | [] => []
      | _ =>
          let t := skip_spaces t in
          match word t with
          | [] => to_words_loop fuel (after_word t)
          | w => w :: to_words_loop fuel (after_word t)
          end
      end
  end.
Definition to_words (t : text) : list text := to_words_loop (length t) t.

(** std::getline: the lines it delivers one after the other, and whether the last
    call, which fails, still finds the stream without the end-of-file flag.  If so
    it erases its string, otherwise the string keeps the last line. *)
Definition newline : char := "010"%char.
Fixpoint getlines (t : text) (line : text) : list text * bool :=
  match t with
  | [] => match line with [] => ([], true) | _ => ([rev line], false) end
  | x :: r =>
      if ascii_dec x newline then let (ls, b) := getlines r [] in (rev line :: ls, b)
      else getlines r (x :: line)
  end.

(** std::from_chars for integers: an optional minus sign and decimal digits;
    utils::parse (tools.hpp:44-59) requires that everything is consumed *)
Definition digit (x : char) : option Z :=
  let n := Z.of_N (N_of_ascii x) in
  if (48 <=? n) && (n <=? 57) then Some (n - 48) else None.
Fixpoint digits (acc : Z) (t : text) : option Z :=
  match t with
  | [] => Some acc
  | x :: r => match digit x with Some d => digits (10 * acc + d) r | None => None end
  end.
Definition parse (lo hi : Z) (t : text) : option Z :=
  let v := match t with
           | [] => None
           | x :: r =>
               if ascii_dec x "-"%char
               then match r with [] => None | _ => option_map Z.opp (digits 0 r) end
               else digits 0 t
           end in
  match v with
  | Some v => if (lo <=? v) && (v <=? hi) then Some v else None
  | None => None
  end.
Definition parse_int32 : text -> option Z := parse (- 2 ^ 31) (2 ^ 31 - 1).
Definition parse_int64 : text -> option Z := parse (- 2 ^ 63) (2 ^ 63 - 1).

(** the conversion from int64 to int32 in pla_file.hpp:303 *)
Definition to_int32 (v : Z) : Z := (v + 2 ^ 31) mod 2 ^ 32 - 2 ^ 31.
(** types.hpp:27-30 *)
Definition to_uint32 (v : Z) : Z := v mod 2 ^ 32.

(** ** load_file: pla_file.hpp:208-411 *)

(** unordered_map with find and emplace, which keeps an existing entry *)
Definition options := list (text * text).
Definition text_dec : forall a b : text, {a = b} + {a <> b} := List.list_eq_dec ascii_dec.
Fixpoint opt_find (k : text) (o : options) : option text :=
  match o with
  | [] => None
  | (k', v) :: o => if text_dec k k' then Some v else opt_find k o
  end.
Definition opt_emplace (k v : text) (o : options) : options :=
  match opt_find k o with Some _ => o | None => (k, v) :: o end.

(** one line of the header: pla_file.hpp:242-287; [None]: not an option *)
Definition header_line (l : text) (o : options) : option options :=
  let f := skip_spaces l in
  match f with
  | [] => Some o
  | x :: _ =>
      if ascii_dec x "#"%char then Some o
      else if ascii_dec x "."%char then
        let v := match after_word f with [] => [] | _ :: r => skip_spaces r end in
        Some (opt_emplace (word f) (trim_end v) o)
      else None
  end.

(** pla_file.hpp:240-288; [line] is the string the loop works with, [erased]
    tells what a failing getline does with it.  The result also contains the string
    afterwards and the lines that remain. *)
Fixpoint read_options (ls : list text) (erased : bool) (line : text) (o : options) : options * text * list text :=
  match ls with
  | [] => (o, if erased then [] else line, [])
  | l :: ls =>
      match header_line l o with
      | Some o => read_options ls erased l o
      | None => (o, l, ls)
      end
  end.

(** the characters of a cube: pla_file.hpp:348-365 and 369-386 *)
Definition trit (x : char) : option Z :=
  if ascii_dec x "0"%char then Some 0
  else if ascii_dec x "1"%char then Some 1
  else if ascii_dec x "~"%char then Some DontCare
  else if ascii_dec x "-"%char then Some DontCare
  else None.

(** What the text of one line leads to.  [LCrash] is a failed assertion in bool_cube. *)
Inductive lres (X : Type) := LOk (x : X) | LNone | LCrash.
Arguments LOk {_}. Arguments LNone {_}. Arguments LCrash {_}.

Fixpoint read_cube (i : Z) (t : text) (b : bool_cube) : lres bool_cube :=
  match t with
  | [] => LOk b
  | x :: r =>
      match trit x with
      | Some v => match cube_set b i v with Some b => read_cube (i + 1) r b | None => LCrash end
      | None => LNone
      end
  end.

Record pla_line := PlaLine { pl_cube : bool_cube; pl_fvals : bool_cube }.

(** one round of the loop of pla_file.hpp:313-390 *)
Inductive round := RSkip | REnd | RLine (l : pla_line) | RNone | RCrash.
Definition read_data_line (nv nf : Z) (l : text) : round :=
  let f := skip_spaces l in
  match f with
  | [] => RSkip
  | x :: _ =>
      if ascii_dec x "."%char then REnd
      else
        match after_word f with
        | [] => RNone
        | _ :: r =>
            let fs := skip_spaces r in
            if (Z.of_nat (length (word f)) =? nv) && (Z.of_nat (length (word fs)) =? nf) then
              match read_cube 0 (word f) (new_cube nv) with
              | LOk v =>
                  match read_cube 0 (word fs) (new_cube nf) with
                  | LOk w => RLine (PlaLine v w)
                  | LNone => RNone
                  | LCrash => RCrash
                  end
              | LNone => RNone
              | LCrash => RCrash
              end
            else RNone
        end
  end.

Fixpoint read_data (nv nf : Z) (ls : list text) : lres (list pla_line) :=
  match ls with
  | [] => LOk []
  | l :: ls =>
      match read_data_line nv nf l with
      | RSkip => read_data nv nf ls
      | REnd => LOk []
      | RLine x => match read_data nv nf ls with LOk xs => LOk (x :: xs) | r => r end
      | RNone => LNone
      | RCrash => LCrash
      end
  end.

Record pla_file := PlaFile { pf_lines : list pla_line; pf_ilb : list text; pf_ob : list text }.
Inductive loaded := Loaded (f : pla_file) | Nullopt | Thrown | Crashed.

Definition key_i : text := ["."%char; "i"%char].
Definition key_o : text := ["."%char; "o"%char].
Definition key_p : text := ["."%char; "p"%char].
Definition key_ilb : text := ["."%char; "i"%char; "l"%char; "b"%char].
Definition key_ob : text := ["."%char; "o"%char; "b"%char].

(** pla_file.hpp:290-411.  If the data loop gives up, the lines read so far are
    dropped, so it does not matter that [read_data] collects them afterwards. *)
Definition load_file (mem : Z -> bool) (t : text) : loaded :=
  let (ls, erased) := getlines t [] in
  let '(o, line, rest) := read_options ls erased [] [] in
  match opt_find key_i o, opt_find key_o o, opt_find key_p o with
  | Some ti, Some to, Some tp =>
      match parse_int32 ti, parse_int32 to, option_map to_int32 (parse_int64 tp) with
      | Some nv, Some nf, Some np =>
          if mem (to_uint32 np) then
            match read_data nv nf (line :: rest) with
            | LOk xs =>
                Loaded (PlaFile xs (to_words (default [] (opt_find key_ilb o)))
                                   (to_words (default [] (opt_find key_ob o))))
            | LNone => Nullopt
            | LCrash => Crashed
            end
          else Thrown
      | _, _, _ => Nullopt
      end
  | _, _, _ => Nullopt
  end.

(** pla_file.hpp:425-433; front() of an empty vector is undefined *)
Definition variable_count (f : pla_file) : option Z := option_map (fun l => bc_size (pl_cube l)) (head (pf_lines f)).
Definition function_count (f : pla_file) : option Z := option_map (fun l => bc_size (pl_fvals l)) (head (pf_lines f)).

(** ** from_pla: diagram_manager.hpp:1046-1121

    The function is a client of the public interface: it creates diagram objects
    with variable, variable_not and constant, folds them, and lets the temporary
    vectors end.  The model is the sequence of these calls.  Object [b + fi] is
    functionDiagrams[fi], object [b + nf + k] is products[k], and object
    [b + nf + nl + k] is variables[k], where [nf] is the number of functions and [nl]
    the number of lines.  Moving diagrams within a growing vector changes no
    reference count in the end and is left out. *)

(** variables: diagram_manager.hpp:1056-1068; index and sign of each literal *)
Fixpoint literals_from (b : bool_cube) (i : Z) (n : nat) : option (list (nat * bool)) :=
  match n with
  | O => Some []
  | S n =>
      match cube_get b i with
      | None => None
      | Some v =>
          match literals_from b (i + 1) n with
          | None => None
          | Some r =>
              Some (if v =? 1 then (Z.to_nat i, true) :: r
                    else if v =? 0 then (Z.to_nat i, false) :: r else r)
          end
      end
  end.
Definition literals (b : bool_cube) : option (list (nat * bool)) := literals_from b 0 (Z.to_nat (bc_size b)).

(** the objects [t], [t + 1], ... *)
Fixpoint literal_calls (t : nat) (ls : list (nat * bool)) : list call :=
  match ls with
  | [] => []
  | (i, pos) :: ls => (if pos then CVar t i else CVarNot t i) :: literal_calls (S t) ls
  end.

(** product: diagram_manager.hpp:1054-1070, result in object [d] *)
Definition product_calls (d t : nat) (ls : list (nat * bool)) : list call :=
  literal_calls t ls ++ [CLeft d AND (seq t (length ls))] ++ map CReset (seq t (length ls)).

(** diagram_manager.hpp:1098-1108: the products of function [fi], starting with
    object [p]; [t] is the first object for literals.  Also the object after the last *)
Fixpoint products_calls (fi : Z) (p t : nat) (ls : list pla_line) : option (list call * nat) :=
  match ls with
  | [] => Some ([], p)
  | l :: ls =>
      match cube_get (pl_fvals l) fi with
      | None => None
      | Some v =>
          if v =? 1 then
            match literals (pl_cube l), products_calls fi (S p) t ls with
            | Some lits, Some (ks, p') => Some (product_calls p t lits ++ ks, p')
            | _, _ => None
            end
          else products_calls fi p t ls
      end
  end.

(** one function: diagram_manager.hpp:1095-1117; [tree] is fold_type::Tree *)
Definition function_calls (tree : bool) (fi : Z) (d p t : nat) (ls : list pla_line) : option (list call) :=
  match products_calls fi p t ls with
  | None => None
  | Some (ks, p') =>
      let (ks, p') := if (p' =? p)%nat then ([CConst p 0], S p) else (ks, p') in
      let ps := seq p (p' - p) in
      Some (ks ++ [if tree then CTree d OR ps else CLeft d OR ps] ++ map CReset ps)
  end.

Fixpoint functions_calls (tree : bool) (fis : list nat) (b p t : nat) (ls : list pla_line) : option (list call) :=
  match fis with
  | [] => Some []
  | fi :: fis =>
      match function_calls tree (Z.of_nat fi) (b + fi) p t ls, functions_calls tree fis b p t ls with
      | Some ks, Some ks' => Some (ks ++ ks')
      | _, _ => None
      end
  end.

Definition from_pla_calls (tree : bool) (b : nat) (f : pla_file) : option (list call) :=
  match function_count f with
  | None => None
  | Some nf =>
      let nf := Z.to_nat nf in
      let nl := length (pf_lines f) in
      functions_calls tree (seq 0 nf) b (b + nf) (b + nf + nl) (pf_lines f)
  end.
