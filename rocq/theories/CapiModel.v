(** Model of the C interface of the APSI wrapper: psi/wrapper/apsi/api/wrapper_util.cc 26-60,
    psi/wrapper/apsi/api/wrapper_common.h (CString, CStringArray, FreeCString 35-38, FreeCStringArray 40-46),
    psi/wrapper/apsi/api/receiver_c_wrapper.cc (BucketReceiverFree 38-44,
    BucketReceiverFreeQueryCtx 75-77, BucketReceiverProcessResultToFile 92-100, MakeQueryResult 102-128,
    FreeQueryResult 130-142) and psi/wrapper/apsi/api/sender_c_wrapper.cc
    (BucketSenderFree 52-56).

    The heap is the list of live blocks with their contents.  Addresses are numbers, 0 is null; a
    block's address is never used again.  [allow]: whether the n-th allocation succeeds.  Simplified:
    malloc(0) succeeds like any other call; the objects behind handles are empty blocks. *)
From Coq Require Import List NArith ZArith Bool.
From Verif Require Import Base Text PirPackModel GroupDbModel.
Import ListNotations.
Local Open Scope N_scope.

(** struct CString and struct CStringArray: data and size. *)
Record cstr : Type := mk_cstr { cs_data : N; cs_size : N }.
Record carr : Type := mk_carr { ca_data : N; ca_size : N }.
(** struct QueryResult. *)
Record qres : Type := mk_qres { qr_rows : N; qr_labeled : bool; qr_keys : carr; qr_values : carr }.

Inductive block : Type := BBytes (b : bytes) | BStrs (l : list cstr) | BResult (r : qres) | BObject.
Record heap : Type := mk_heap { h_next : N; h_live : list (N * block) }.

Section Heap.
Variable allow : N -> bool.

(** malloc and the writes that fill the block. *)
Definition alloc (b : block) (h : heap) : option N * heap :=
  if allow (h_next h) then (Some (h_next h), mk_heap (h_next h + 1) ((h_next h, b) :: h_live h))
  else (None, mk_heap (h_next h + 1) (h_live h)).
Fixpoint drop (a : N) (l : list (N * block)) : list (N * block) :=
  match l with [] => [] | (x, b) :: l' => if x =? a then l' else (x, b) :: drop a l' end.
(** free: nothing for null, undefined for anything that is not a live block. *)
Definition free (a : N) (h : heap) : outcome heap :=
  if a =? 0 then Ok h else
  match assoc a (h_live h) with Some _ => Ok (mk_heap (h_next h) (drop a (h_live h))) | None => UB end.

(** MakeCString (wrapper_util.cc 26-39); [None]: an exception. *)
Definition make_cstring (s : bytes) (h : heap) : option cstr * heap :=
  match alloc (BBytes (s ++ [0])) h with
  | (Some a, h') => (Some (mk_cstr a (N.of_nat (length s))), h')
  | (None, h') => (None, h')
  end.
(** MakeString (40). *)
Definition make_string (c : cstr) (h : heap) : outcome bytes :=
  match assoc (cs_data c) (h_live h) with
  | Some (BBytes b) => if cs_size c <=? N.of_nat (length b) then Ok (firstn (N.to_nat (cs_size c)) b) else UB
  | _ => UB
  end.
(** What a C program reads up to the terminator. *)
Fixpoint until_zero (b : bytes) : bytes := match b with [] => [] | c :: b' => if c =? 0 then [] else c :: until_zero b' end.
Definition read_c (c : cstr) (h : heap) : outcome bytes :=
  match assoc (cs_data c) (h_live h) with Some (BBytes b) => Ok (until_zero b) | _ => UB end.

(** The loop of MakeCStringArray (47-49). *)
Fixpoint make_cstrings (ss : list bytes) (h : heap) : option (list cstr) * heap :=
  match ss with
  | [] => (Some [], h)
  | s :: ss' =>
    match make_cstring s h with
    | (None, h1) => (None, h1)
    | (Some c, h1) => match make_cstrings ss' h1 with (Some cs, h2) => (Some (c :: cs), h2) | (None, h2) => (None, h2) end
    end
  end.
Fixpoint fill (a : N) (b : block) (l : list (N * block)) : list (N * block) :=
  match l with [] => [] | (x, b') :: l' => if x =? a then (x, b) :: l' else (x, b') :: fill a b l' end.
(** MakeCStringArray (42-52): the array first, then the strings. *)
Definition make_carray (ss : list bytes) (h : heap) : option carr * heap :=
  match alloc (BStrs []) h with
  | (None, h1) => (None, h1)
  | (Some a, h1) =>
    match make_cstrings ss h1 with
    | (None, h2) => (None, h2)
    | (Some cs, h2) => (Some (mk_carr a (N.of_nat (length ss))), mk_heap (h_next h2) (fill a (BStrs cs) (h_live h2)))
    end
  end.
(** The entries of an array. *)
Definition entries (c : carr) (h : heap) : outcome (list cstr) :=
  if ca_size c =? 0 then Ok [] else
  match assoc (ca_data c) (h_live h) with
  | Some (BStrs l) => if ca_size c <=? N.of_nat (length l) then Ok (firstn (N.to_nat (ca_size c)) l) else UB
  | _ => UB
  end.
(** MakeStringArray (54-60). *)
Definition make_strings (c : carr) (h : heap) : outcome (list bytes) :=
  do l <- entries c h; map_out (fun x => make_string x h) l.

(** FreeCString: the structure keeps its pointer. *)
Definition free_cstring (c : cstr) (h : heap) : outcome (cstr * heap) :=
  do h1 <- free (cs_data c) h; Ok (mk_cstr (cs_data c) 0, h1).
Fixpoint free_all (cs : list cstr) (h : heap) : outcome heap :=
  match cs with [] => Ok h | c :: cs' => do h1 <- free (cs_data c) h; free_all cs' h1 end.
(** FreeCStringArray. *)
Definition free_carray (c : carr) (h : heap) : outcome (carr * heap) :=
  do l <- entries c h;
  do h1 <- free_all l h;
  do h2 <- free (ca_data c) h1;
  Ok (mk_carr (ca_data c) 0, h2).

(** MakeQueryResult: [Some 0] is nullptr. *)
Definition make_result (keys values : list bytes) (h : heap) : option N * heap :=
  if negb (Nat.eqb (length keys) (length values)) && negb (Nat.eqb (length values) 0) then (Some 0, h) else
  match alloc BObject h with
  | (None, h1) => (Some 0, h1)
  | (Some q, h1) =>
    match make_carray keys h1 with
    | (None, h2) => (None, h2)
    | (Some ks, h2) =>
      if Nat.eqb (length values) 0 then
        (Some q, mk_heap (h_next h2) (fill q (BResult (mk_qres (N.of_nat (length keys)) false ks (mk_carr 0 0))) (h_live h2)))
      else
      match make_carray values h2 with
      | (None, h3) => (None, h3)
      | (Some vs, h3) =>
        (Some q, mk_heap (h_next h3) (fill q (BResult (mk_qres (N.of_nat (length keys)) true ks vs)) (h_live h3)))
      end
    end
  end.
(** FreeQueryResult. *)
Definition free_result (q : N) (h : heap) : outcome heap :=
  if q =? 0 then Ok h else
  match assoc q (h_live h) with
  | Some (BResult r) =>
    do x <- free_carray (qr_keys r) h;
    do h2 <- (if ca_data (qr_values r) =? 0 then Ok (snd x) else do y <- free_carray (qr_values r) (snd x); Ok (snd y));
    free q h2
  | _ => UB
  end.

(** BucketReceiverFree (receiver_c_wrapper.cc) of a pointer to a handle: [None] is a null pointer to
    pointer; the handle afterwards. *)
Definition receiver_free (p : option N) (h : heap) : outcome (option N * heap) :=
  match p with
  | None => Ok (None, h)
  | Some a => if a =? 0 then Ok (p, h) else do h1 <- free a h; Ok (Some 0, h1)
  end.
(** BucketSenderFree (sender_c_wrapper.cc). *)
Definition sender_free (p : option N) (h : heap) : outcome (option N * heap) :=
  match p with
  | None => Throw
  | Some a => do h1 <- free a h; Ok (Some 0, h1)
  end.
(** BucketReceiverFreeQueryCtx: by value. *)
Definition ctx_free (a : N) (h : heap) : outcome heap := free a h.
End Heap.

(** BucketReceiverProcessResultToFile: std::accumulate with an int. *)
Definition to_int (z : Z) : Z := ((z + 2147483648) mod 4294967296 - 2147483648)%Z.
Definition sum_counts (l : list N) : N :=
  Z.to_N (fold_left (fun acc n => to_int (acc mod 18446744073709551616 + Z.of_N n)) l 0 mod 4294967296)%Z.
