(** Model of the work left to the shell and of the checks around it: psi/utils/key.cc (ParseCpuset 34-51,
    GetCpuCount 53-107, MultiKeySort 122-183) and psi/utils/csv_checker.cc (CheckIfBOMExists 44-57, CsvChecker
    61-150).

    The shell splits an unquoted path at blanks; what it does with its other special characters is
    not modelled and is [UB] here, as are words taken for options.  [sorted]: what sort(1) makes of lines, [files]: the contents of the
    files there are.  Simplified: the number of processors only goes into --parallel; std::stoi takes
    plain digits; the sort keys are columns of the file; sort, uniq and tail themselves do not fail for want of memory or space. *)
From Coq Require Import List NArith ZArith Bool.
From Verif Require Import Base Text DigestModel.
Import ListNotations.
Local Open Scope N_scope.

(** Characters with a meaning to the shell, apart from the blank, by their codes: tab, line end, quotes,
    dollar, ampersand, brackets, redirections and patterns among them. *)
Definition special (c : N) : bool :=
  existsb (N.eqb c) [9; 10; 33; 34; 35; 36; 38; 39; 40; 41; 42; 59; 60; 62; 63; 91; 92; 96; 123; 124; 126].
Definition blank : N := 32.
(** A word that tail or sort takes for an option. *)
Definition option_word (w : bytes) : bool := match w with c :: _ => c =? 45 | [] => false end.
Definition words (p : bytes) : list bytes := filter (fun w => negb (beqb w [])) (split_on blank p).
(** What is left of a text after its first line. *)
Fixpoint skip_line (t : bytes) : bytes := match t with [] => [] | c :: r => if c =? newline then r else skip_line r end.
Definition unlines (l : list bytes) : bytes := flat_map (fun x => x ++ [newline]) l.

Section Sort.
Variable sorted : list bytes -> list bytes.
Variable files : bytes -> option bytes.

(** tail -n +2 with the given operands; with several it names each file. *)
Definition tail_one (w : bytes) : bytes := match files w with Some c => skip_line c | None => [] end.
Definition tail_named (w : bytes) : bytes :=
  match files w with Some c => [61; 61; 62; 32] ++ w ++ [32; 60; 61; 61; 10] ++ skip_line c | None => [] end.
Definition tail_output (ws : list bytes) : bytes :=
  match ws with [w] => tail_one w | _ => flat_map tail_named ws end.
(** What sort reads: its operands if it has some (an error if one is missing), else the pipe. *)
Definition sort_input (operands : list bytes) (pipe : bytes) : outcome bytes :=
  match operands with
  | [] => Ok pipe
  | _ => if forallb (fun w => match files w with Some _ => true | None => false end) operands
         then Ok (flat_map (fun w => match files w with Some c => c | None => [] end) operands) else Throw
  end.
(** MultiKeySort without -n and uniq: the header is written by the program, the rest appended by
    the shell; the status is that of sort.  The result is what the output file holds. *)
Definition multi_key_sort (inp out : bytes) : outcome bytes :=
  match files inp with
  | None => Throw
  | Some c =>
    let header := hd [] (lines c) ++ [newline] in
    if existsb special inp || existsb special out then UB else
    match words inp, words out with
    | [], _ | _, [] => UB
    | ws, target :: operands =>
      if existsb option_word (ws ++ operands) then UB else
      do text <- sort_input operands (tail_output ws);
      Ok (if beqb target out then header ++ unlines (sorted (lines text)) else header)
    end
  end.
End Sort.
(** What Table::SortInplace (psi/utils/table_utils.cc 231-236) appends to the path: .sorted *)
Definition sorted_suffix : bytes := [46; 115; 111; 114; 116; 101; 100].

(** uniq -d over sorted lines: one line for every group of more than one. *)
Fixpoint uniq_d (l : list bytes) : list bytes :=
  match l with
  | [] => []
  | x :: r => let rest := uniq_d r in
    match r with
    | y :: _ => if beqb x y then match rest with z :: _ => if beqb z x then rest else x :: rest | [] => [x] end else rest
    | [] => rest
    end
  end.

Section Check.
Variable sha : bytes -> bytes.
Variable sort_lines : list bytes -> list bytes.

(** CheckIfBOMExists. *)
Definition has_bom (first_line : bytes) : bool :=
  match first_line with a :: b :: c :: _ => (a =? 239) && (b =? 187) && (c =? 191) | _ => false end.
(** CsvChecker: [rows] are the selected cells of the rows, batch by batch; the number of rows and the
    digest. *)
Definition csv_check (first_line : bytes) (batches : list (list (list bytes))) (skip : bool) : outcome (N * bytes) :=
  enforce (negb (has_bom first_line))
  (let rows := concat batches in
   enforce (forallb (forallb (fun cell => negb (beqb cell []))) rows)
   (let keys := map row_key rows in
    enforce (skip || match uniq_d (sort_lines (lines (unlines keys))) with [] => true | _ => false end)
    (Ok (N.of_nat (length rows), sha (concat keys))))).
End Check.

(** std::stoi: digits up to the first other character. *)
Fixpoint digits_of (s : bytes) : bytes := match s with c :: r => if is_digit c then c :: digits_of r else [] | [] => [] end.
Definition stoi (s : bytes) : outcome Z :=
  let d := digits_of s in
  match d with [] => Throw | _ => if digits_value d <? 2147483648 then Ok (Z.of_N (digits_value d)) else Throw end.
(** ParseCpuset; [lines] with ',' for the line end drops a last empty piece. *)
Fixpoint until_dash (s : bytes) : option (bytes * bytes) :=
  match s with [] => None | c :: r => if c =? 45 then Some ([], r) else match until_dash r with Some (a, b) => Some (c :: a, b) | None => None end end.
Fixpoint parse_items (l : list bytes) (count : Z) : outcome Z :=
  match l with
  | [] => Ok count
  | item :: r =>
    match until_dash item with
    | Some (a, b) => do s <- stoi a; do e <- stoi b; parse_items r (count + (e - s + 1))
    | None => parse_items r (if beqb item [] then count else count + 1)
    end
  end%Z.
Definition parse_cpuset (s : bytes) : outcome Z := parse_items (drop_last_empty (split_on comma s)) 0.
(** GetCpuCount: the first line of cpuset.cpus, quota and period of cgroup v1 and of v2 ([None]: no such
    file, or "max", or not two numbers), and what the hardware says. *)
Definition cpu_count (cpuset : option bytes) (v1 v2 : option (Z * Z)) (hardware : Z) : outcome Z :=
  let quota :=
    match v1 with
    | Some (q, p) => if (0 <? q)%Z && (0 <? p)%Z then Some ((q + p - 1) / p)%Z else None
    | None => None
    end in
  let quota2 :=
    match v2 with Some (q, p) => if (0 <? p)%Z then Some (Z.quot (q + p - 1) p) else None | None => None end in
  let rest := match quota with Some n => n | None => match quota2 with Some n => n | None => hardware end end in
  match cpuset with
  | Some s => if negb (beqb s []) && negb (beqb s [48]) then parse_cpuset s else Ok rest
  | None => Ok rest
  end.
