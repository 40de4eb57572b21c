(** Specification vocabulary for files (C68): what a decimal literal is and which number it denotes; what it means to
    write a table as comma separated text or as SVMLight text.  Nothing here mentions how a file is read. *)
From Verif Require Import Base.
From Coq Require Import Ascii String.
From Coq Require Import List.
Import ListNotations.
Open Scope char_scope.
Open Scope R_scope.

Notation text := (list ascii).

(** characters *)
Definition LF : ascii := "010"%char.
Definition CR : ascii := "013"%char.
Definition digit_char (d : nat) : ascii := ascii_of_nat (48 + d).
Definition blank (c : ascii) : Prop := In c ["009"; "010"; "011"; "012"; "013"; " "]%char.

(** a decimal literal: sign, digits before the point, digits after the point (if there is one), exponent (if any) *)
Inductive sign := NoSign | Plus | Minus.
Record literal := mkLit { l_sign : sign; l_int : list nat; l_frac : option (list nat); l_exp : option (ascii * sign * list nat) }.

Definition sign_text (s : sign) : text := match s with NoSign => [] | Plus => ["+"]%char | Minus => ["-"]%char end.
Definition digits_text (ds : list nat) : text := map digit_char ds.
Definition literal_text (l : literal) : text :=
  sign_text (l_sign l) ++ digits_text (l_int l) ++
  (match l_frac l with None => [] | Some ds => "."%char :: digits_text ds end) ++
  (match l_exp l with None => [] | Some (e, s, ds) => e :: sign_text s ++ digits_text ds end).

Definition digits_ok (ds : list nat) : Prop := Forall (fun d => (d < 10)%nat) ds.
Definition literal_ok (l : literal) : Prop :=
  digits_ok (l_int l) /\ digits_ok (match l_frac l with Some ds => ds | None => [] end) /\
  (l_int l <> [] \/ exists d ds, l_frac l = Some (d :: ds)) /\
  (match l_exp l with None => True | Some (e, _, ds) => (e = "e"%char \/ e = "E"%char) /\ digits_ok ds /\ ds <> [] end).

(** the number written with the digits ds, most significant first; and 0.ds *)
Definition digits_number (ds : list nat) : nat := fold_left (fun a d => (10 * a + d)%nat) ds 0%nat.
Fixpoint fraction (ds : list nat) : R := match ds with [] => 0 | d :: t => (INR d + fraction t) / 10 end.
Definition signed (s : sign) (x : R) : R := match s with Minus => - x | _ => x end.
Definition power10 (s : sign) (k : nat) : R := match s with Minus => / 10 ^ k | _ => 10 ^ k end.
Definition literal_value (l : literal) : R :=
  signed (l_sign l) ((INR (digits_number (l_int l)) + fraction (match l_frac l with Some ds => ds | None => [] end)) *
    match l_exp l with None => 1 | Some (_, s, ds) => power10 s (digits_number ds) end).

(** [cell t x]: the text t is a decimal literal of value x, possibly with blanks around it *)
Definition cell (t : text) (x : R) : Prop :=
  exists pre l post, Forall blank pre /\ Forall blank post /\ literal_ok l /\ t = pre ++ literal_text l ++ post /\ x = literal_value l.

(** pieces written one after the other with a separator between them *)
Fixpoint joined (sep : text) (ps : list text) : text :=
  match ps with [] => [] | [p] => p | p :: t => p ++ sep ++ joined sep t end.

(** a file whose lines are ls: each line is ended by "\n" or "\r\n"; the end of the last line may be missing *)
Definition line_end (e : text) : Prop := e = [LF] \/ e = [CR; LF].
Inductive file_of : list text -> text -> Prop :=
| file_nil : file_of [] []
| file_last l : l <> [] -> file_of [l] l
| file_line l e ls t : line_end e -> file_of ls t -> file_of (l :: ls) (l ++ e ++ t).

(** a line may contain neither "\n" nor end with "\r" *)
Definition line_ok (l : text) : Prop := ~ In LF l /\ forall l', l <> l' ++ [CR].

(** words separated by blanks, blanks allowed at both ends *)
Definition starts_blank (t : text) : Prop := exists c r, t = c :: r /\ blank c.
Inductive spaced : list text -> text -> Prop :=
| spaced_end b : Forall blank b -> spaced [] b
| spaced_word b w ws t : Forall blank b -> w <> [] -> (forall c, In c w -> ~ blank c) -> (t = [] \/ starts_blank t) ->
    spaced ws t -> spaced (w :: ws) (b ++ w ++ t).

(** the SVMLight word "index:value" *)
Definition pair_text (ds : list nat) (l : literal) : text := digits_text ds ++ ":"%char :: literal_text l.
Definition pair_word (w : text) (p : nat * R) : Prop :=
  exists ds l, digits_ok ds /\ ds <> [] /\ literal_ok l /\ (Z.of_nat (digits_number ds) < 2 ^ 64)%Z /\
    w = pair_text ds l /\ fst p = digits_number ds /\ snd p = literal_value l.
(** the SVMLight line for label y and the entries ps *)
Definition svm_line_text (t : text) (line : R * list (nat * R)) : Prop :=
  exists l ws, literal_ok l /\ fst line = literal_value l /\ Forall2 pair_word ws (snd line) /\ spaced (literal_text l :: ws) t.

(** a path that ends in ".csv" after a non-empty file stem *)
Definition csv_path (p : text) : Prop := exists stem, p = stem ++ list_ascii_of_string ".csv" /\ stem <> [] /\ forall r, stem <> r ++ ["/"%char].
