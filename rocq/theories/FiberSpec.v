(** How fibers pass control (the documentation of Fiber#resume, #transfer, #raise and #kill; the links of CRuby's cont.c).
    A fiber that is resumed remembers who resumed it and goes back there when it yields or ends; a fiber that was only
    transferred to has nobody, its end goes to the innermost fiber that the thread's root is waiting for,
    found when it ends. Whether a fiber can be resumed or transferred to depends on how it gave control away:
    by yielding, resuming or transferring. *)
From Coq Require Import List Bool Arith ZArith.
From Verif Require Import FiberModel.
Import ListNotations.

(** [call]: the fiber named in the last call that left this fiber, and was it kill? [aimed]: was the fiber
    ever a target of transfer? (only for the conditions below). *)
Record sfiber := mkG { sst : status; prev : option nat; waits : option nat; yielding : bool; killed : bool; call : nat * bool; aimed : bool; inner : bool }.
Record sstate := mkT { scount : nat; scur : nat; sfib : nat -> sfiber; transfers : bool; inners : bool }.
Definition son (s : sstate) (f : nat) (g : sfiber -> sfiber) : sstate := mkT (scount s) (scur s) (upd (sfib s) f (g (sfib s f))) (transfers s) (inners s).
Definition sgo (s : sstate) (f : nat) : sstate := mkT (scount s) f (sfib s) (transfers s) (inners s).
Definition s_st x (r : sfiber) := mkG x (prev r) (waits r) (yielding r) (killed r) (call r) (aimed r) (inner r).
Definition s_prev x (r : sfiber) := mkG (sst r) x (waits r) (yielding r) (killed r) (call r) (aimed r) (inner r).
Definition s_waits x (r : sfiber) := mkG (sst r) (prev r) x (yielding r) (killed r) (call r) (aimed r) (inner r).
Definition s_yielding x (r : sfiber) := mkG (sst r) (prev r) (waits r) x (killed r) (call r) (aimed r) (inner r).
Definition s_killed x (r : sfiber) := mkG (sst r) (prev r) (waits r) (yielding r) x (call r) (aimed r) (inner r).
Definition s_call x (r : sfiber) := mkG (sst r) (prev r) (waits r) (yielding r) (killed r) x (aimed r) (inner r).
Definition s_aimed x (r : sfiber) := mkG (sst r) (prev r) (waits r) (yielding r) (killed r) (call r) x (inner r).

(** Control comes to [t]: a fiber's call of kill gives nil, any other call the value. *)
Definition land (s : sstate) (t : nat) (r : res) : sstate * res :=
  let s := sgo s t in
  if killed (sfib s t) then (s, RErr EKill)
  else match r with
       | RVal v => if snd (call (sfib s t)) && negb (yielding (sfib s t)) then (s, RVal VNil) else (s, RVal v)
       | _ => (s, r)
       end.
(** Start or continue a fiber. *)
Definition to_fiber (s : sstate) (t : nat) (r : res) : sstate * res :=
  match sst (sfib s t) with
  | Created => (sgo (son s t (s_st Live)) t, r)
  | _ => let '(s', r') := land s t r in (son s' t (s_yielding false), r')
  end.
(** By resume: the links. *)
Definition sresume (s : sstate) (f : nat) (r : res) (k : bool) : sstate * res :=
  let c := scur s in
  let s := son s c (fun x => s_call (f, k) (s_waits (Some f) x)) in
  let s := son s f (s_prev (Some c)) in
  to_fiber s f r.
(** By transfer: no link. *)
Definition stransfer (s : sstate) (f : nat) (r : res) (k : bool) : sstate * res :=
  to_fiber (son s (scur s) (s_call (f, k))) f r.
Fixpoint innermost (s : sstate) (n f : nat) : nat :=
  match n with 0 => f | S n => match waits (sfib s f) with Some g => innermost s n g | None => f end end.
Definition inmost (s : sstate) (f : nat) : nat := innermost s (scount s) f.
(** Control leaves for the fiber that resumed this one, or for the innermost of the root's. *)
Definition leave (s : sstate) (r : res) : sstate * res :=
  let c := scur s in
  match prev (sfib s c) with
  | Some p => land (son (son s c (s_prev None)) p (s_waits None)) p r
  | None => land s (inmost s 0) r
  end.
Definition send (s : sstate) (r : res) : sstate * res := leave (son s (scur s) (s_st Done)) r.
(** What resume asks. *)
Definition resumable (s : sstate) (f : nat) : option reason :=
  let x := sfib s f in
  match sst x with
  | Done => Some (if inner x then Stop else Terminated)
  | _ => if f =? scur s then Some Current
         else if prev x then Some Double
         else if waits x then Some Resuming
         else match sst x with
              | Created => None
              | _ => if yielding x then None else Some Transferred
              end
  end.
(** A fiber suspended by yield is continued by resume, one suspended by transfer by transfer. *)
Definition sraise (s : sstate) (f : nat) (e : exn) (k : bool) : sstate * res :=
  if yielding (sfib s f) then sresume s f (RErr e) k else stransfer s f (RErr e) k.

Definition sstep (s : sstate) (o : op) : sstate * res :=
  if named o <? scount s
  then match o with
       | ONew i => (mkT (S (scount s)) (scur s) (upd (sfib s) (scount s) (mkG Created None None false false (0, false) false i))
                        (transfers s) (i || inners s), RVal (VFiber (scount s)))
       | OResume f v => match resumable s f with Some r => (s, RErr (EFib r)) | None => sresume s f (RVal v) false end
       | OTransfer f v =>
           if waits (sfib s f) then (s, RErr (EFib TransferResuming))
           else if yielding (sfib s f) then (s, RErr (EFib TransferYielding))
           else match sst (sfib s f) with
                | Done => (s, RErr (EFib Dead))
                | _ => let s := son s f (s_aimed true) in
                       if f =? scur s then (s, RVal v)
                       else stransfer (mkT (scount s) (scur s) (sfib s) true (inners s)) f (RVal v) false
                end
       | OYield v => match prev (sfib s (scur s)) with
                     | None => (s, RErr (EFib NoParent))
                     | Some _ => leave (son s (scur s) (s_yielding true)) (RVal v)
                     end
       | OReturn v => if scur s =? 0 then (s, RVal v) else send s (RVal v)
       (* a kill that ends its fiber is not seen by the next *)
       | ODie e => if scur s =? 0 then (s, RErr e) else send s (match e with EKill => RVal VNil | _ => RErr e end)
       | ORaise f e =>
           let g := inmost s f in    (* f itself, or the fiber at the end of those f is waiting for *)
           if g =? scur s then (s, RErr e)
           else match sst (sfib s g) with
                | Created => (s, RErr (EFib Unborn))
                | Done => (s, RErr (EFib Terminated))
                | Live => sraise s g e false
                end
       | OKill f =>
           if killed (sfib s f) then (s, RVal VNil)
           else match sst (sfib s f) with
                | Done => (s, RVal VNil)
                | Created => (son s f (s_st Done), RVal VNil)
                | Live => if f =? scur s then (son s f (s_killed true), RErr EKill)
                          else let s := son s f (s_killed true) in
                               let g := inmost s f in
                               if g =? scur s then (s, RErr EKill) else sraise s g EKill true
                end
       | OAlive f => (s, RVal (VBool match sst (sfib s f) with Done => false | _ => true end))
       end
  else (s, RVal VNil).
Fixpoint srun (s : sstate) (l : list op) : list (nat * res) :=
  match l with
  | [] => []
  | o :: l => let '(s', r) := sstep s o in (scur s', r) :: srun s' l
  end.
Definition sidle : sfiber := mkG Created None None false false (0, false) false false.
Definition sstart : sstate := mkT 1 0 (upd (fun _ => sidle) 0 (s_st Live sidle)) false false.

(** The histories of the proved part. Control is given by transfer only from a fiber that was not resumed, or that the root
    is waiting for through resumes; not together with enumerators. *)
Definition direct (s : sstate) : bool :=
  negb (inners s) && (match prev (sfib s (scur s)) with None => true | _ => false end || (inmost s 0 =? scur s)).
Definition none {A} (o : option A) : bool := match o with None => true | Some _ => false end.
Definition is_kill (e : exn) : bool := match e with EKill => true | _ => false end.
Definition fair (s : sstate) (o : op) : bool :=
  let c := scur s in
  if killed (sfib s c)
  then match o with    (* a killed fiber only ends *)
       | ONew i => negb (i && transfers s)
       | ODie EKill => (c =? 0) || negb (none (prev (sfib s c))) || (fst (call (sfib s (inmost s 0))) =? c)
       | OReturn _ | ODie _ | OAlive _ => true
       | _ => false
       end
  else match o with
       | ONew i => negb (i && transfers s)
       | OResume f _ => negb (aimed (sfib s f) && none (resumable s f))
                        && negb ((f =? 0) && negb (c =? 0) && none (waits (sfib s 0)) && negb (aimed (sfib s 0)))
       | OTransfer _ _ => direct s
       | ODie e => negb (is_kill e)
       | ORaise f e => negb (is_kill e)
                       && (if none (waits (sfib s f))
                           then match sst (sfib s f) with Live => (f =? c) || yielding (sfib s f) || direct s | _ => true end
                           else inmost s f =? c)
       | OKill f => negb (f =? 0) && none (waits (sfib s f))
                    && match sst (sfib s f) with
                       | Done => false
                       | Created => true
                       | Live => (f =? c) || yielding (sfib s f) || (direct s && negb (killed (sfib s (fst (call (sfib s f))))))
                       end
       | _ => true
       end.
Fixpoint fair_all (s : sstate) (l : list op) : bool :=
  match l with [] => true | o :: l => fair s o && fair_all (fst (sstep s o)) l end.

(** Histories without transfer: a fiber is killed once, when it waits for no other, and then only ends. *)
Definition plain (s : sstate) (o : op) : bool :=
  match o with
  | OTransfer _ _ => false
  | OResume _ _ | OYield _ => negb (killed (sfib s (scur s)))
  | ONew _ | OReturn _ | OAlive _ => true
  | ODie e => negb (is_kill e) || killed (sfib s (scur s))
  | ORaise _ e => negb (is_kill e) && negb (killed (sfib s (scur s)))
  | OKill f => negb (killed (sfib s (scur s))) && negb (f =? 0) && none (waits (sfib s f))
               && match sst (sfib s f) with Done => false | _ => true end
  end.
Fixpoint plain_all (s : sstate) (l : list op) : bool :=
  match l with [] => true | o :: l => plain s o && plain_all (fst (sstep s o)) l end.
