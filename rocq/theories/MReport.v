(** * Model of /repo/scripts/generate_benchmark_report.py

    Simplifications: texts are lists of bytes (UTF-8); [str.rstrip] knows the
    ASCII white space only; the formatting of numbers into table cells, the
    titles and the machine summary are not modelled. *)
From Coq Require Import ZArith Bool String Ascii List.
From Verif Require Import Num MApi.
Import ListNotations.

Section Tables.
Context {N : Num}.
Local Open Scope num_scope.

(** generate_benchmark_report.py:84-92 [case_key]. *)
Definition key : Type := string * Z * bool * bool.
Definition key_eqb (a b : key) : bool :=
  let '(n1, m1, p1, l1) := a in
  let '(n2, m2, p2, l2) := b in
  String.eqb n1 n2 && Z.eqb m1 m2 && Bool.eqb p1 p2 && Bool.eqb l1 l2.

(** The fields of a pytest-benchmark entry that the tables use: lines 75-81
    [solver_name], 84-92 [case_key] and ["stats"]["median"]. *)
Record bench : Type := Bench { b_key : key; b_solver : string; b_median : num }.

(** A Python dict with keys [(case_key, solver_name)]: the list of its
    assignments, the last one first. *)
Definition dict (A : Type) : Type := list ((key * string) * A).
Fixpoint dict_get {A} (d : dict A) (k : key) (s : string) (default : A) : A :=
  match d with
  | [] => default
  | ((k', s'), a) :: d' =>
      if key_eqb k k' && String.eqb s s' then a else dict_get d' k s default
  end.

(** Lines 156-158 = 170-172: the case keys in order of first appearance, and the
    entries of a case in order of appearance. *)
Fixpoint case_keys (seen : list key) (bs : list bench) : list key :=
  match bs with
  | [] => []
  | b :: bs' =>
      if existsb (key_eqb (b_key b)) seen then case_keys seen bs'
      else b_key b :: case_keys (b_key b :: seen) bs'
  end.
Definition case_entries (k : key) (bs : list bench) : list bench :=
  filter (fun b => key_eqb k (b_key b)) bs.

(** Line 162, [sorted(entries, key=median)]: a stable sort. *)
Fixpoint insert_bench (b : bench) (l : list bench) : list bench :=
  match l with
  | [] => [b]
  | c :: l' => if b_median c <? b_median b then c :: insert_bench b l' else b :: c :: l'
  end.
Fixpoint sort_benches (l : list bench) : list bench :=
  match l with
  | [] => []
  | b :: l' => insert_bench b (sort_benches l')
  end.

(** Lines 163-164, ranks from [start] on. *)
Fixpoint rank_entries (k : key) (start : Z) (l : list bench) (d : dict Z) : dict Z :=
  match l with
  | [] => d
  | b :: l' => rank_entries k (start + 1) l' (((k, b_solver b), start) :: d)
  end.

(** Lines 154-165 [_rank_within_case]. *)
Definition rank_within_case (bs : list bench) : dict Z :=
  fold_left (fun d k => rank_entries k 1 (sort_benches (case_entries k bs)) d)
    (case_keys [] bs) [].

(** Line 176, [max] of the medians (the first argument on ties, of no
    consequence). *)
Fixpoint slowest (m : num) (l : list bench) : num :=
  match l with
  | [] => m
  | b :: l' => slowest (if b_median b >? m then b_median b else m) l'
  end.
Definition slowest_of (l : list bench) : num :=
  match l with
  | [] => #0                            (* not reachable: ValueError *)
  | b :: l' => slowest (b_median b) l'
  end.

(** Lines 177-181. *)
Definition speedup_entries (k : key) (slow : num) (l : list bench) (d : dict num) : dict num :=
  fold_left
    (fun d b =>
       ((k, b_solver b), if b_median b >? #0 then slow / b_median b else #1) :: d)
    l d.

(** Lines 168-182 [_speedup_within_case]. *)
Definition speedup_within_case (bs : list bench) : dict num :=
  fold_left
    (fun d k => let es := case_entries k bs in speedup_entries k (slowest_of es) es d)
    (case_keys [] bs) [].

(** Lines 242-245, the numbers printed in the row of [b]. *)
Definition row_rank (bs : list bench) (b : bench) : Z :=
  dict_get (rank_within_case bs) (b_key b) (b_solver b) 0%Z.
Definition row_speedup (bs : list bench) (b : bench) : num :=
  dict_get (speedup_within_case bs) (b_key b) (b_solver b) #1.

End Tables.

(** ** The README *)
Definition text : Type := list ascii.
Definition txt (s : string) : text := list_ascii_of_string s.

(** Lines 11-12. *)
Definition start_marker : text := txt "<!-- performance-comparison:start -->".
Definition end_marker : text := txt "<!-- performance-comparison:end -->".
Definition newline : ascii := Ascii.ascii_of_nat 10.
Definition backslash : ascii := Ascii.ascii_of_nat 92.
Definition nlnl : text := [newline; newline].

(** [s] without the prefix [p]. *)
Fixpoint strip_prefix (p s : text) : option text :=
  match p, s with
  | [], _ => Some s
  | a :: p', b :: s' => if Ascii.eqb a b then strip_prefix p' s' else None
  | _ :: _, [] => None
  end.

(** First occurrence of [p] in [s]: the texts before and after it. *)
Fixpoint find_text (p s : text) : option (text * text) :=
  match strip_prefix p s with
  | Some r => Some ([], r)
  | None =>
      match s with
      | [] => None
      | c :: s' =>
          match find_text p s' with
          | Some (b, a) => Some (c :: b, a)
          | None => None
          end
      end
  end.
Definition contains (p s : text) : bool :=
  match find_text p s with Some _ => true | None => false end.

(** The optional newline at the end of the pattern, line 271. *)
Definition drop_newline (s : text) : text :=
  match s with
  | c :: s' => if Ascii.eqb c newline then s' else s
  | [] => []
  end.

(** Lines 270-274, [pattern.sub] with the pattern [START.*?END\n?] (DOTALL); [n]
    bounds the number of matches. *)
Fixpoint sub_section (n : nat) (repl s : text) : text :=
  match n with
  | O => s
  | S n' =>
      match find_text start_marker s with
      | None => s
      | Some (pre, r) =>
          match find_text end_marker r with
          | None => s
          | Some (_, r') => pre ++ repl ++ sub_section n' repl (drop_newline r')
          end
      end
  end.

(** The replacement string of [re.sub] is a template: escapes are processed.
    Simplification: octal escapes and [\g<0>] are treated as errors. *)
Definition letter (c : ascii) : bool :=
  let n := nat_of_ascii c in
  ((65 <=? n) && (n <=? 90) || (97 <=? n) && (n <=? 122))%nat.
Definition digit (c : ascii) : bool :=
  let n := nat_of_ascii c in ((48 <=? n) && (n <=? 57))%nat.
Definition escape (c : ascii) : option text :=
  match nat_of_ascii c with
  | 97 => Some [ascii_of_nat 7]
  | 98 => Some [ascii_of_nat 8]
  | 102 => Some [ascii_of_nat 12]
  | 110 => Some [ascii_of_nat 10]
  | 114 => Some [ascii_of_nat 13]
  | 116 => Some [ascii_of_nat 9]
  | 118 => Some [ascii_of_nat 11]
  | 92 => Some [backslash]
  | _ => if letter c || digit c then None else Some [backslash; c]
  end.
Fixpoint expand_template (t : text) : res text :=
  match t with
  | [] => Ok []
  | c :: t' =>
      if Ascii.eqb c backslash then
        match t' with
        | [] => Err (ValueError "bad escape (end of pattern)")
        | e :: t'' =>
            match escape e with
            | None => Err (ValueError "bad escape")
            | Some x => let* y := expand_template t'' in Ok (x ++ y)
            end
        end
      else let* y := expand_template t' in Ok (c :: y)
  end.

(** [str.rstrip], ASCII white space. *)
Definition white (c : ascii) : bool :=
  let n := nat_of_ascii c in
  ((9 <=? n) && (n <=? 13) || (28 <=? n) && (n <=? 32))%nat.
Fixpoint rstrip (s : text) : text :=
  match s with
  | [] => []
  | c :: s' =>
      match rstrip s' with
      | [] => if white c then [] else [c]
      | r => c :: r
      end
  end.

(** Lines 264-278 [update_readme], from the old text and the section to the new
    text. *)
Definition update_readme (content section : text) : res text :=
  if contains start_marker content && contains end_marker content then
    match find_text (start_marker ++ nlnl) section with
    | None => Err (ValueError "list index out of range")
    | Some (_, generated) =>
        let* repl := expand_template (start_marker ++ nlnl ++ generated) in
        Ok (sub_section (S (length content)) repl content)
    end
  else Ok (rstrip content ++ nlnl ++ section).

(** Lines 195-261, the shape of the generated section: title, start marker,
    tables, end marker. *)
Definition make_section (tables : text) : text :=
  txt "## Performance comparison" ++ nlnl ++ start_marker ++ nlnl ++ tables
  ++ end_marker ++ [newline].
