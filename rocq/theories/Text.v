(** Byte strings: decimal numbers, splitting, lines, base64. *)
From Coq Require Import List NArith Lia Bool.
From Verif Require Import Base.
Import ListNotations.
Local Open Scope N_scope.

(** A byte string; bytes are numbers below 256. *)
Definition bytes : Type := list N.
Definition is_byte (b : N) : Prop := b < 256.

Fixpoint beqb (a b : bytes) : bool :=
  match a, b with
  | [], [] => true
  | x :: a', y :: b' => (x =? y) && beqb a' b'
  | _, _ => false
  end.

Definition comma : N := 44.
Definition newline : N := 10.

(** fmt "{}" of an unsigned number. *)
Fixpoint dec_aux (fuel : nat) (n : N) (acc : bytes) : bytes :=
  match fuel with
  | O => acc
  | S f => let acc' := (48 + n mod 10) :: acc in
           if n / 10 =? 0 then acc' else dec_aux f (n / 10) acc'
  end.
Definition dec (n : N) : bytes := dec_aux (S (N.to_nat (N.log2 n))) n [].

(** absl::SimpleAtoi into an unsigned type of [limit] values; only plain digit
    strings (no sign, no blanks) are modelled as accepted. *)
Definition is_digit (c : N) : bool := (48 <=? c) && (c <=? 57).
Definition digits_value (s : bytes) : N := fold_left (fun a c => 10 * a + (c - 48)) s 0.
Definition atoi (limit : N) (s : bytes) : option N :=
  match s with
  | [] => None
  | _ => if forallb is_digit s && (digits_value s <? limit) then Some (digits_value s) else None
  end.

(** absl::StrSplit(s, sep). *)
Fixpoint split_on (sep : N) (s : bytes) : list bytes :=
  match s with
  | [] => [[]]
  | c :: r =>
    if c =? sep then [] :: split_on sep r
    else match split_on sep r with
         | [] => [[c]]
         | t :: ts => (c :: t) :: ts
         end
  end.

(** absl::StrJoin(l, sep) for a one-byte separator. *)
Fixpoint join_with (sep : N) (l : list bytes) : bytes :=
  match l with
  | [] => []
  | [x] => x
  | x :: r => x ++ sep :: join_with sep r
  end.

(** The lines std::getline delivers. *)
Definition drop_last_empty (l : list bytes) : list bytes :=
  match rev l with
  | [] :: r => rev r
  | _ => l
  end.
Definition lines (s : bytes) : list bytes := drop_last_empty (split_on newline s).

(** Standard base64 alphabet. *)
Definition b64char (s : N) : N :=
  if s <? 26 then 65 + s
  else if s <? 52 then 97 + (s - 26)
  else if s <? 62 then 48 + (s - 52)
  else if s =? 62 then 43 else 47.
Definition pad : N := 61.

(** absl::Base64Escape (with padding). *)
Fixpoint base64 (s : bytes) : bytes :=
  match s with
  | [] => []
  | [a] => [b64char (a / 4); b64char (a mod 4 * 16); pad; pad]
  | [a; b] => [b64char (a / 4); b64char (a mod 4 * 16 + b / 16); b64char (b mod 16 * 4); pad]
  | a :: b :: c :: r =>
    b64char (a / 4) :: b64char (a mod 4 * 16 + b / 16) :: b64char (b mod 16 * 4 + c / 64)
    :: b64char (c mod 64) :: base64 r
  end.
