(** Specification for hexdump: a reader of the text. *)
From Coq Require Import ZArith List Bool.
From Verif Require Import Py.
Import ListNotations.
Open Scope Z_scope.

Definition unhex (c : Z) : Z := if c <=? 57 then c - 48 else c - 87.

(** number denoted by hexadecimal text *)
Definition from_hex (l : list Z) : Z := fold_left (fun acc c => 16 * acc + unhex c) l 0.

(** text before and after the first ':' *)
Fixpoint split_colon (l : list Z) : list Z * list Z :=
  match l with
  | [] => ([], [])
  | c :: l' => if c =? 58 then ([], l') else let '(a, b) := split_colon l' in (c :: a, b)
  end.

Definition line_label (l : list Z) : Z := from_hex (fst (split_colon l)).

(** at most n groups of the form "hh " *)
Fixpoint read_groups (n : nat) (l : list Z) : list Z :=
  match n, l with
  | S n', a :: b :: _ :: l' => if a =? 32 then [] else (16 * unhex a + unhex b) :: read_groups n' l'
  | _, _ => []
  end.

(** the bytes shown on a line with [row_size] columns *)
Definition line_bytes (row_size : Z) (l : list Z) : list Z :=
  read_groups (Z.to_nat row_size) (skipn 1 (snd (split_colon l))).

(** the text column after the byte columns *)
Definition line_text (row_size : Z) (l : list Z) : list Z :=
  skipn (Z.to_nat (2 + 3 * row_size)) (snd (split_colon l)).

(** the character shown for a byte: visible ASCII as itself, anything else (blank included) as '.' *)
Definition shown (c : Z) : Z := if c <=? 32 then 46 else if 127 <=? c then 46 else c.

(** the pieces of a text between newlines *)
Fixpoint split_nl (l : list Z) : list (list Z) :=
  match l with
  | [] => [[]]
  | c :: l' => if c =? 10 then [] :: split_nl l' else match split_nl l' with p :: ps => (c :: p) :: ps | [] => [[c]] end
  end.
