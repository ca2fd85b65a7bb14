(** What callers of the label table may do concurrently, and what they can observe. *)
From Coq Require Import NArith List.
From Verif Require Import M_Base M_Labels M_Conc M_ConcLabels S_Labels.
Import ListNotations.
Open Scope N_scope.

(** The finished calls as a history in the sense of S_Labels. *)
Definition op_of (c : lcall) : lop :=
  match c with KSource s o n => LSource s o n | KUnion l r => LUnion l r | KMark l => LMark l end.
Definition history (s : lshared) : list (lop * N) := map (fun x => (op_of (fst x), snd x)) (ls_log s).

(** A label some finished call has returned. *)
Definition handed (h : list (lcall * N)) (l : N) : Prop :=
  (exists src off n f, In (KSource src off n, f) h /\ f <= l /\ l < f + n) \/
  (exists a c, In (KUnion a c, l) h).

(** What callers guarantee: source indices fit 8 bits, reads are not empty and stay below
    offset 2^54, and only labels that have been handed out are passed back. *)
Definition call_ok (h : list (lcall * N)) (c : lcall) : Prop :=
  match c with
  | KSource src off n => src <= 255 /\ 1 <= n /\ off + n <= 2 ^ 54
  | KUnion l r => handed h l /\ handed h r
  | KMark l => handed h l
  end.

(** Schedules in which idle threads only make such calls. *)
Fixpoint legal (z : lshared * list lthread) (schedule : list (N * lcall)) : Prop :=
  match schedule with
  | [] => True
  | x :: rest => (get (snd z) (fst x) = Some TIdle -> call_ok (ls_log (fst z)) (snd x)) /\
                 legal (move tstep z x) rest
  end.

(** The state of [k] threads after a schedule. *)
Definition after (k : nat) (schedule : list (N * lcall)) : lshared * list lthread := run tstep (lstart k) schedule.
Definition all_idle (ts : list lthread) : Prop := Forall (fun t => t = TIdle) ts.

(** The label a thread is in the middle of marking. *)
Definition marking (t : lthread) : option N :=
  match t with
  | TVisit r _ _ | TVMark r _ _ _ | TVMarkW r _ _ _ _ | TSet r _ _ _ | TSetW r _ _ _ _ => Some r
  | _ => None
  end.
Definition being_marked (ts : list lthread) (r : N) : Prop := exists j t, get ts j = Some t /\ marking t = Some r.
Definition marked (h : list (lcall * N)) (r : N) : Prop := In (KMark r, 0) h.

(** How many labels the calls made along a schedule ask for at most. *)
Definition demand (c : lcall) : N := match c with KSource _ _ n => n | KUnion _ _ => 1 | KMark _ => 0 end.
Fixpoint demands (z : lshared * list lthread) (schedule : list (N * lcall)) : N :=
  match schedule with
  | [] => 0
  | x :: rest => match get (snd z) (fst x) with Some TIdle => demand (snd x) | _ => 0 end +
                 demands (move tstep z x) rest
  end.
