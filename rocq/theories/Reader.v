(** Model of reading files: src/sample/sample_reader.rs, the text part of src/sample/sample_struct.rs:63-143
    [from_csv] and src/sample/sample_struct.rs:237-297 [from_svmlight], and src/sample/sample_struct.rs:594-611
    [index_and_feature].
    Text is a list of ASCII characters (bytes of a UTF-8 file without non-ASCII white space).  The standard
    library functions used by the code (BufRead::lines, str::split, str::trim, str::split_whitespace, str::parse)
    are modelled from their documentation.  parse::<f64> gives the exact value of the literal (not the nearest binary64); literals
    "inf", "infinity", "nan" leave the model with [NonFinite]. *)
From Verif Require Import Base Feature Sample.
From Coq Require Import Ascii String.
From Coq Require Import List.
Import ListNotations.
Open Scope char_scope.
Open Scope R_scope.

Notation text := (list ascii).

(** str::split(pred): the pieces between separators, at least one *)
Fixpoint split_by (p : ascii -> bool) (l : text) : list text :=
  match l with
  | [] => [[]]
  | a :: t => if p a then [] :: split_by p t
              else match split_by p t with q :: qs => (a :: q) :: qs | [] => [[a]] end
  end.

(** BufRead::lines: "\n" ends a line, a "\r" before it is dropped too; a last line without "\n" counts if it is not empty *)
Definition strip_cr (l : text) : text :=
  match rev l with c :: r => if Ascii.eqb c "013" then rev r else l | [] => l end.
Definition file_lines (l : text) : list text :=
  let ps := split_by (Ascii.eqb "010") l in
  map strip_cr (removelast ps) ++ match last ps [] with [] => [] | p => [p] end.

(** char::is_whitespace, ASCII part *)
Definition is_ws (c : ascii) : bool := let n := nat_of_ascii c in ((Nat.leb 9 n && Nat.leb n 13) || Nat.eqb n 32)%bool.

(** str::trim *)
Fixpoint trim_start (l : text) : text := match l with a :: t => if is_ws a then trim_start t else l | [] => [] end.
Definition trim (l : text) : text := rev (trim_start (rev (trim_start l))).

(** str::split_whitespace *)
Definition is_empty_text (l : text) : bool := match l with [] => true | _ => false end.
Definition split_whitespace (l : text) : list text := filter (fun w => negb (is_empty_text w)) (split_by is_ws l).

(** the longest prefix of decimal digits *)
Definition digit_of (c : ascii) : option nat := let n := nat_of_ascii c in if (Nat.leb 48 n && Nat.leb n 57)%bool then Some (n - 48)%nat else None.
Fixpoint take_digits (l : text) : list nat * text :=
  match l with
  | a :: t => match digit_of a with Some d => (d :: fst (take_digits t), snd (take_digits t)) | None => ([], l) end
  | [] => ([], [])
  end.
Definition number_of (ds : list nat) : nat := fold_left (fun a d => (10 * a + d)%nat) ds 0%nat.

(** an optional sign; true for "-" *)
Definition take_sign (l : text) : bool * text :=
  match l with
  | a :: t => if Ascii.eqb a "-" then (true, t) else if Ascii.eqb a "+" then (false, t) else (false, l)
  | [] => (false, [])
  end.

(** parse::<usize>() followed by expect/unwrap: digits with an optional "+", below 2^64 *)
Definition parse_usize (l : text) : res nat :=
  let l := match l with a :: t => if Ascii.eqb a "+" then t else l | [] => [] end in
  match take_digits l with
  | (d :: ds, []) => let v := number_of (d :: ds) in if Z.ltb (Z.of_nat v) (2 ^ 64) then Ok v else Panic UnwrapNone
  | _ => Panic UnwrapNone
  end.

(** the words f64::from_str accepts besides numbers, in any case *)
Definition lower (c : ascii) : ascii := let n := nat_of_ascii c in if (Nat.leb 65 n && Nat.leb n 90)%bool then ascii_of_nat (n + 32) else c.
Definition special (l : text) : bool :=
  existsb (fun w => if list_eq_dec ascii_dec (map lower l) (list_ascii_of_string w) then true else false) ["inf"; "infinity"; "nan"]%string.

(** parse::<f64>() followed by unwrap/expect *)
Definition parse_exp (l : text) : option Z :=
  match l with
  | [] => Some 0%Z
  | e :: t =>
      if (Ascii.eqb e "e" || Ascii.eqb e "E")%bool then
        let s := take_sign t in
        match take_digits (snd s) with
        | (d :: ds, []) => let v := Z.of_nat (number_of (d :: ds)) in Some (if fst s then Z.opp v else v)
        | _ => None
        end
      else None
  end.
Definition parse_f64 (l : text) : res R :=
  let s := take_sign l in
  if special (snd s) then Panic NonFinite else
  let ip := take_digits (snd s) in
  let fp := match snd ip with a :: t => if Ascii.eqb a "." then take_digits t else ([], snd ip) | [] => ([], []) end in
  match fst ip ++ fst fp with
  | [] => Panic UnwrapNone
  | ds => match parse_exp (snd fp) with
          | None => Panic UnwrapNone
          | Some e => let v := INR (number_of ds) * powerRZ 10 (e - Z.of_nat (length (fst fp))) in
                      Ok (if fst s then - v else v)
          end
  end.

Fixpoint map_res {A B} (f : A -> res B) (l : list A) : res (list B) :=
  match l with [] => Ok [] | a :: t => let* b := f a in let* r := map_res f t in Ok (b :: r) end.

(** sample_struct.rs:88-97 and 116-118: line.split(',').map(|x| x.trim().parse::<f64>().unwrap()).  Simplification:
    the code interleaves parsing and appending, so which of two panics comes first may differ *)
Definition parse_row (l : text) : res (list R) := map_res (fun x => parse_f64 (trim x)) (split_by (Ascii.eqb ",") l).

(** sample_struct.rs:63-143 [from_csv] *)
Definition read_csv (content : text) (has_header : bool) : res sample :=
  let ls := file_lines content in
  if has_header then
    match ls with
    | [] => Panic UnwrapNone
    | h :: rest => let* rows := map_res parse_row rest in
                   from_csv (Some (map string_of_list_ascii (split_by (Ascii.eqb ",") h))) rows
    end
  else let* rows := map_res parse_row ls in from_csv None rows.

(** sample_struct.rs:594-611 [index_and_feature] *)
Definition index_and_feature (word : text) : res (nat * R) :=
  let ps := split_by (Ascii.eqb ":") word in
  match ps with
  | i :: x :: _ => let* i := parse_usize (trim i) in let* x := parse_f64 (trim x) in Ok (i, x)
  | i :: [] => let* i := parse_usize (trim i) in Panic UnwrapNone
  | [] => Panic UnwrapNone
  end.

(** sample_struct.rs:249-259 *)
Definition parse_svm_line (l : text) : res (R * list (nat * R)) :=
  match split_whitespace l with
  | [] => Panic UnwrapNone
  | y :: ws => let* y := parse_f64 (trim y) in let* xs := map_res index_and_feature ws in Ok (y, xs)
  end.

(** sample_struct.rs:237-297 [from_svmlight] *)
Definition read_svmlight (content : text) : res sample :=
  let* ls := map_res parse_svm_line (file_lines content) in Ok (from_svmlight ls).

(** Path::extension: what follows the last "." of the last component, unless that is empty before the "."; ".." has none.
    Simplification: trailing slashes and "." components are not normalised *)
Definition extension (path : text) : option text :=
  let name := last (split_by (Ascii.eqb "/") path) [] in
  let ps := split_by (Ascii.eqb ".") name in
  match ps with
  | [] | [_] => None
  | [[]; _] => None
  | [[]; []; []] => None
  | _ => Some (last ps [])
  end.

(** sample_reader.rs:22-26 *)
Record reader := mkReader { rd_file : option text; rd_header : bool; rd_target : option string }.
(** #[derive(Default)] *)
Definition reader_default : reader := mkReader None false None.
(** sample_reader.rs:29-36, 39-47, 50-59 [has_header] [file] [target_feature] *)
Definition rd_has_header (r : reader) (b : bool) : reader := mkReader (rd_file r) b (rd_target r).
Definition rd_set_file (r : reader) (f : text) : reader := mkReader (Some f) (rd_header r) (rd_target r).
Definition rd_target_feature (r : reader) (t : string) : reader := mkReader (rd_file r) (rd_header r) (Some t).

(** sample_reader.rs:68-91 [read].  [fs] is the file system (None: File::open fails); Ok None is io::Result Err *)
Definition read (fs : text -> option text) (r : reader) : res (option sample) :=
  match rd_file r with
  | None => Panic AssertFailed
  | Some f =>
      if match extension f with Some e => if list_eq_dec ascii_dec e ["c"; "s"; "v"] then true else false | None => false end then
        match rd_target r with
        | None => Panic AssertFailed
        | Some t => match fs f with
                    | None => Ok None
                    | Some c => let* s := read_csv c (rd_header r) in let* s := set_target s t in Ok (Some s)
                    end
        end
      else match fs f with
           | None => Ok None
           | Some c => let* s := read_svmlight c in Ok (Some s)
           end
  end.
