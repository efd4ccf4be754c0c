(** The text of the group files of a grouped APSI database: how rows are written
    (psi/wrapper/apsi/utils/csv_reader.cc GroupBucketize 246-304) and how they are read again
    (psi/wrapper/apsi/utils/group_db.cc Generate 281-336, common.cc MakeArrowCsvReader 93-111),
    and the text of the source table (csv_reader.cc 52-88).

    Arrow's CSV parser is not part of the repository; [csv] models it with the default options
    that MakeArrowCsvReader passes (separator comma, values in double quotes, a doubled quote
    inside quotes is one quote, no escape character, empty lines skipped).  A quote is special
    only at the start of a value; after the closing quote the value goes on unquoted.  Not
    modelled: the check that values are UTF-8, the spellings of a missing bucket number. *)
From Coq Require Import List NArith Bool String Ascii.
From Verif Require Import Base Text StoreModel PirPackModel GroupDbModel.
Import ListNotations.
Local Open Scope list_scope.
Local Open Scope N_scope.

Definition quote : N := 34.
Definition creturn : N := 13.
Definition asc (s : string) : bytes := map N_of_ascii (list_ascii_of_string s).

(** Where the parser is: at the start of a line, at the start of a later value, inside an unquoted
    part, inside quotes. *)
Inductive cmode : Type := AtLine | AtValue | InPlain | InQuotes.
Definition line_break (c : N) : bool := (c =? newline) || (c =? creturn).

(** The rows of a block, or an error; [v]: the value so far, [r]: the values of the row so far.  A
    block that ends inside quotes is an error. *)
Fixpoint csv (m : cmode) (v : bytes) (r : list bytes) (s : bytes) {struct s} : option (list (list bytes)) :=
  match s with
  | [] =>
    match m with
    | AtLine => Some []
    | AtValue | InPlain => Some [r ++ [v]]
    | InQuotes => None
    end
  | c :: t =>
    match m with
    | InQuotes =>
      if c =? quote then
        match t with
        | c' :: t' => if c' =? quote then csv InQuotes (v ++ [quote]) r t' else csv InPlain v r t
        | [] => csv InPlain v r t
        end
      else csv InQuotes (v ++ [c]) r t
    | _ =>
      let first := match m with InPlain => false | _ => true end in
      if line_break c then
        match m with
        | AtLine => csv AtLine [] [] t
        | _ => match csv AtLine [] [] t with Some rs => Some ((r ++ [v]) :: rs) | None => None end
        end
      else if c =? comma then csv AtValue [] (r ++ [v]) t
      else if first && (c =? quote) then csv InQuotes [] r t
      else csv InPlain (v ++ [c]) r t
    end
  end.

(** The blocks are parsed one after the other. *)
Fixpoint csv_blocks (bs : list bytes) : option (list (list bytes)) :=
  match bs with
  | [] => Some []
  | b :: bs' =>
    match csv AtLine [] [] b, csv_blocks bs' with
    | Some rs, Some rs' => Some (rs ++ rs')
    | _, _ => None
    end
  end.

(** The strings of GroupBucketize (csv_reader.cc 247-251, 299-302). *)
Definition head_fields (labeled : bool) : list bytes :=
  if labeled then [asc "bucket_id"; asc "key"; asc "value"] else [asc "bucket_id"; asc "key"].
Definition in_quotes (s : bytes) : bytes := quote :: s ++ [quote].
Definition line_text (labeled : bool) (l : gline) : bytes :=
  match l with
  | GHead => join_with comma (head_fields labeled) ++ [newline]
  | GRow b (k, v) =>
    dec b ++ comma :: in_quotes k ++
    (if labeled then comma :: in_quotes v else []) ++ [newline]
  end.
Definition group_text (labeled : bool) (ls : list gline) : bytes := flat_map (line_text labeled) ls.

(** A row with the columns int64, utf8 and, if labelled, utf8 (group_db.cc 281-288, 313-316). *)
Definition field_row (labeled : bool) (f : list bytes) : outcome gline :=
  match f, labeled with
  | [b; k; v], true =>
    match atoi 9223372036854775808 b with Some n => Ok (GRow n (k, v)) | None => Throw end
  | [b; k], false =>
    match atoi 9223372036854775808 b with Some n => Ok (GRow n (k, [])) | None => Throw end
  | _, _ => Throw
  end.
(** IsGrouopLabeled (group_db.cc 256-261) is the second argument here: the first line is the header
    that GroupBucketize wrote. *)
Definition group_read (labeled : bool) (blocks : list bytes) : outcome (list gline) :=
  match csv_blocks blocks with
  | Some (h :: rows) =>
    enforce (match list_eq_dec (list_eq_dec N.eq_dec) h (head_fields labeled) with left _ => true | right _ => false end)
      (do ls <- map_out (field_row labeled) rows; Ok (GHead :: ls))
  | _ => Throw
  end.

(** The source table as Arrow reads it (csv_reader.cc 52-88): the header is one of four lines. *)
Definition source_rows (text : bytes) : outcome (bool * list row) :=
  match csv AtLine [] [] text with
  | Some (h :: rows) =>
    if list_eq_dec (list_eq_dec N.eq_dec) h [asc "key"; asc "value"] then
      do rs <- map_out (fun f => match f with [k; v] => Ok (k, v) | _ => Throw end) rows; Ok (true, rs)
    else if list_eq_dec (list_eq_dec N.eq_dec) h [asc "key"] then
      do rs <- map_out (fun f => match f with [k] => Ok (k, []) | _ => Throw end) rows; Ok (false, rs)
    else Throw
  | _ => Throw
  end.
