(** Model of psi/utils/progress.{h,cc}: a tree of progress objects.  Every public member
    function holds the object's lock or is a single atomic store, so a run is a sequence of
    whole calls; an object is addressed by the path of child positions leading to it.
    Descriptions are left out. *)
From Coq Require Import List NArith Bool.
From Verif Require Import Base StoreModel.
Import ListNotations.
Local Open Scope N_scope.

Inductive pmode := PSingle | PSerial | PParallel.
(** progress.h 62-76: mode_, percentage_, done_, weights_, sub_progresses_. *)
Inductive progress := PNode (mode : pmode) (pct : N) (done : bool) (weights : list N) (subs : list progress).

(** Constructor (progress.cc 25-29). *)
Definition new_progress : progress := PNode PSingle 0 false [] [].

(** Progress::Data (progress.h 36-42). *)
Record pdata := mk_pdata { d_total : N; d_finished : N; d_running : N; d_pct : N }.

Definition is_single (m : pmode) : bool := match m with PSingle => true | _ => false end.

(** Get (54-110).  The loop of 80-97 works on the accumulated weighted percentage and
    counts; weights_[i] past the end is undefined behaviour.  The
    job counters count allocated objects, so they are taken not to wrap. *)
Record pacc := mk_pacc { a_total : N; a_fin : N; a_run : N; a_sum : N }.
Fixpoint get (t : progress) : outcome pdata :=
  match t with
  | PNode m p dn ws subs =>
      if is_single m
      then Ok (mk_pdata 1 (if 100 <=? p then 1 else 0) (if (0 <? p) && (p <? 100) then 1 else 0) p)
      else
        let total_weight := fold_left (fun a w => u64 (a + w)) ws 0 in
        do r <- (fix go (ws : list N) (ss : list progress) (acc : pacc) {struct ss} : outcome pacc :=
                   match ss, ws with
                   | [], _ => Ok acc
                   | _ :: _, [] => UB
                   | s :: ss', w :: ws' =>
                       do d <- get s;
                       go ws' ss' (mk_pacc (a_total acc - 1 + d_total d) (a_fin acc + d_finished d)
                                           (a_run acc + d_running d) (u64 (a_sum acc + u64 (w * d_pct d))))
                   end) ws subs (mk_pacc (N.of_nat (length ws)) 0 0 0);
        Ok (mk_pdata (a_total r) (a_fin r) (a_run r) (a_sum r / (if total_weight =? 0 then 1 else total_weight)))
  end.

(** Update (31-33). *)
Definition update (p : N) (t : progress) : progress :=
  match t with PNode m _ dn ws subs => PNode m (N.min p 100) dn ws subs end.
(** Done (35-50). *)
Fixpoint done (t : progress) : progress :=
  match t with
  | PNode m p dn ws subs =>
      if dn then t
      else PNode m 100 true ws (if is_single m then subs else map done subs)
  end.
(** SetWeights (112-116), SetSubJobCount (118-122). *)
Definition set_weights (nw : list N) (nm : pmode) (t : progress) : progress :=
  match t with PNode _ p dn _ subs => PNode nm p dn nw subs end.
Definition set_sub_job_count (n : nat) (nm : pmode) (t : progress) : progress :=
  match t with PNode _ p dn ws subs => PNode nm p dn (firstn n ws ++ repeat 1 (n - length ws)) subs end.
(** AddSubProgress (124-131), NextSubProgress (133-144). *)
Definition add_sub (t : progress) : progress :=
  match t with PNode m p dn ws subs => PNode m p dn ws (subs ++ [new_progress]) end.
Definition next_sub (t : progress) : progress :=
  match t with
  | PNode m p dn ws subs =>
      PNode m p dn ws (match subs with
                       | [] => [new_progress]
                       | _ => removelast subs ++ [done (last subs new_progress)] ++ [new_progress]
                       end)
  end.

Inductive pop :=
| OUpdate (p : N) | ODone | OSetWeights (ws : list N) (m : pmode) | OSetCount (n : nat) (m : pmode) | OAdd | ONext.
Definition apply_op (o : pop) (t : progress) : progress :=
  match o with
  | OUpdate p => update p t
  | ODone => done t
  | OSetWeights ws m => set_weights ws m t
  | OSetCount n m => set_sub_job_count n m t
  | OAdd => add_sub t
  | ONext => next_sub t
  end.
(** A call on the object at [path]. *)
Fixpoint call (path : list nat) (o : pop) (t : progress) {struct path} : progress :=
  match path with
  | [] => apply_op o t
  | i :: r => match t with PNode m p dn ws subs => PNode m p dn ws (upd i (call r o) subs) end
  end.
