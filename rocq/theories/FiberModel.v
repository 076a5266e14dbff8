(** Fibers of one thread: resume, transfer, Fiber.yield, raise, kill, termination.
    monoruby/src/value/rvalue/fiber.rs:150-612, builtins/fiber.rs:161-480, executor.rs:1960-2118,
    codegen/arch/x86_64/invoker.rs:133-207 and 343-420.
    A program is the sequence of what the running fiber does next; every sequence is allowed. *)
From Coq Require Import List Bool Arith ZArith.
Import ListNotations.

Inductive val := VNil | VInt (z : Z) | VBool (b : bool) | VFiber (f : nat).
(** The messages of FiberError ([Transferred]: also CRuby's "transferring fiber"); [Stop]: StopIteration. *)
Inductive reason := Terminated | Current | Double | Resuming | Transferred | TransferResuming | TransferYielding
                  | Dead | NoParent | Unborn | KillMain | SwitchFailed | Stop.
(** [EKill]: MonorubyErrKind::FiberKill. *)
Inductive exn := EFib (r : reason) | EUser (n : nat) | EKill.
(** What the running fiber sees; [Crash]: a panic, or a switch to a stack that is not suspended. *)
Inductive res := RVal (v : val) | RErr (e : exn) | Crash.
Inductive status := Created | Live | Done.
(** The native frame at the top of a suspended fiber: inside Fiber.yield, or inside a call of resume,
    transfer, raise ([WCall f false]) or kill ([WCall f true]) on the fiber [f]. *)
Inductive frame := WNone | WYield | WCall (f : nat) (kill : bool).
(** executor.rs:372-410. [st] is rsp_save (a running fiber counts as suspended there); [internal]: made by
    Fiber::from for an enumerator. *)
Record fiber := mkF { st : status; par : option nat; resu : option nat; ret : option nat; yld : bool; trf : bool; kld : bool;
                      err : option exn; troot : option nat; internal : bool; top : frame }.
Record state := mkS { count : nat; cur : nat; fib : nat -> fiber }.

Definition upd {A} (f : nat -> A) (n : nat) (v : A) : nat -> A := fun m => if m =? n then v else f m.
Definition on (s : state) (f : nat) (g : fiber -> fiber) : state := mkS (count s) (cur s) (upd (fib s) f (g (fib s f))).
Definition go (s : state) (f : nat) : state := mkS (count s) f (fib s).
Definition set_st x (r : fiber) := mkF x (par r) (resu r) (ret r) (yld r) (trf r) (kld r) (err r) (troot r) (internal r) (top r).
Definition set_par x (r : fiber) := mkF (st r) x (resu r) (ret r) (yld r) (trf r) (kld r) (err r) (troot r) (internal r) (top r).
Definition set_resu x (r : fiber) := mkF (st r) (par r) x (ret r) (yld r) (trf r) (kld r) (err r) (troot r) (internal r) (top r).
Definition set_ret x (r : fiber) := mkF (st r) (par r) (resu r) x (yld r) (trf r) (kld r) (err r) (troot r) (internal r) (top r).
Definition set_yld x (r : fiber) := mkF (st r) (par r) (resu r) (ret r) x (trf r) (kld r) (err r) (troot r) (internal r) (top r).
Definition set_trf x (r : fiber) := mkF (st r) (par r) (resu r) (ret r) (yld r) x (kld r) (err r) (troot r) (internal r) (top r).
Definition set_kld x (r : fiber) := mkF (st r) (par r) (resu r) (ret r) (yld r) (trf r) x (err r) (troot r) (internal r) (top r).
Definition set_err x (r : fiber) := mkF (st r) (par r) (resu r) (ret r) (yld r) (trf r) (kld r) x (troot r) (internal r) (top r).
Definition set_top x (r : fiber) := mkF (st r) (par r) (resu r) (ret r) (yld r) (trf r) (kld r) (err r) (troot r) (internal r) x.

(** fiber.rs:551-612, after a switch back into [t] out of a call on [f]; [None] is the null value. *)
Definition receive (s : state) (t f : nat) (raw : option val) : state * res :=
  let s := on s t (set_resu None) in
  let s := match st (fib s f), par (fib s f) with
           | Live, Some p => if p =? t then on s f (fun r => set_yld true (set_par None r)) else s
           | _, _ => s
           end in
  match raw with
  | Some v => (s, RVal v)
  | None =>
      match err (fib s t) with
      | Some e => let s' := on s t (set_err None) in
                  match e with EKill => if kld (fib s f) then (s', RVal VNil) else (s', RErr e) | _ => (s', RErr e) end
      | None => if kld (fib s f) then (s, RVal VNil)
                else match err (fib s f) with
                     | Some e => (on s f (set_err None), RErr e)
                     | None => (s, RErr (EFib SwitchFailed))
                     end
      end
  end.
(** Fiber#kill maps the value of its switch to nil (builtins/fiber.rs:421-422). *)
Definition as_kill (kill : bool) (x : state * res) : state * res :=
  match snd x with RVal _ => if kill then (fst x, RVal VNil) else x | _ => x end.
(** The stack of [t] is switched to: the end of Fiber.yield (executor.rs:2064-2090) or [receive]. *)
Definition arrive (s : state) (t : nat) (raw : option val) : state * res :=
  let s := go s t in
  match st (fib s t), top (fib s t) with
  | Live, WYield =>
      match raw with
      | Some v => (s, RVal v)
      | None => match err (fib s t) with
                | Some e => (on s t (set_err None), RErr e)
                | None => match par (fib s t) with
                          | Some p => match err (fib s p) with Some e => (on s p (set_err None), RErr e) | None => (s, Crash) end
                          | None => (s, Crash)
                          end
                end
      end
  | Live, WCall f k => as_kill k (receive s t f raw)
  | _, _ => (s, Crash)
  end.

(** prepare_activation and the invoker (fiber.rs:441-475, invoker.rs:146-190): the body starts. *)
Definition activate (s : state) (f : nat) (v : val) (resume : bool) (back : nat) : state * res :=
  let c := cur s in
  let s := on s c (fun r => set_top (WCall f false) (if resume then set_resu (Some f) r else r)) in
  let s := on s f (fun r => set_st Live (set_ret (Some back) (if resume then set_par (Some c) r else r))) in
  (go s f, RVal v).
(** resume_fiber (fiber.rs:523-535, invoker.rs:343-369) and the resume style of inject_error (fiber.rs:335-350). *)
Definition enter (s : state) (f : nat) (raw : option val) (kill : bool) : state * res :=
  let c := cur s in
  let s := on s c (fun r => set_top (WCall f kill) (set_resu (Some f) r)) in
  let s := on s f (fun r => set_par (Some c) (set_yld false (set_ret (Some c) r))) in
  arrive s f raw.
(** The end of the chain of resuming fibers from [f]; [n] bounds the steps. *)
Fixpoint chain_end (s : state) (n f : nat) : nat :=
  match n with 0 => f | S n => match resu (fib s f) with Some g => chain_end s n g | None => f end end.
Definition root_of (s : state) : nat := match troot (fib s (cur s)) with Some r => r | None => cur s end.
(** fiber.rs:266-283 and 352-363. *)
Definition return_target (s : state) (f : nat) : nat :=
  match par (fib s f) with Some p => p | None => chain_end s (count s) (root_of s) end.
(** The switch of transfer (fiber.rs:291-302) and the transfer style of inject_error (fiber.rs:351-374). *)
Definition cross (s : state) (f : nat) (raw : option val) (kill clear : bool) : state * res :=
  let back := return_target s f in
  let s := on s (cur s) (set_top (WCall f kill)) in
  let s := on s f (fun r => set_ret (Some back) (if clear then set_yld false r else r)) in
  arrive s f raw.

(** check_not_across_resume (fiber.rs:537-549): is [f] above the current fiber? *)
Fixpoint above (s : state) (n c f : nat) : bool :=
  match n with 0 => false | S n => match par (fib s c) with Some p => (p =? f) || above s n p f | None => false end end.
Definition check_across (s : state) (f : nat) : option reason :=
  if f =? cur s then Some Current else if above s (count s) (cur s) f then Some Double else None.
(** Fiber#resume (fiber.rs:184-228); for an internal fiber Enumerator#next (fiber.rs:377-397). *)
Definition check_resumable (s : state) (f : nat) : option reason :=
  let r := fib s f in
  match st r with
  | Done => Some Terminated
  | _ => if f =? cur s then Some Current
         else if par r then Some Double
         else if resu r then Some Resuming
         else if trf r then Some Transferred
         else None
  end.
Definition resume (s : state) (f : nat) (v : val) : state * res :=
  if internal (fib s f)
  then match st (fib s f) with
       | Created => activate s f v true (cur s)
       | Live => match check_across s f with Some r => (s, RErr (EFib r)) | None => enter s f (Some v) false end
       | Done => (s, RErr (EFib Stop))
       end
  else match check_resumable s f with
       | Some r => (s, RErr (EFib r))
       | None => match st (fib s f) with
                 | Created => activate s f v true (cur s)
                 | _ => match check_across s f with Some r => (s, RErr (EFib r)) | None => enter s f (Some v) false end
                 end
       end.
(** Fiber#transfer (fiber.rs:238-305). *)
Definition transfer (s : state) (f : nat) (v : val) : state * res :=
  let r := fib s f in
  if resu r then (s, RErr (EFib TransferResuming))
  else if yld r then (s, RErr (EFib TransferYielding))
  else match st r with
       | Done => (s, RErr (EFib Dead))
       | _ => let s := on s f (set_trf true) in
              if f =? cur s then (s, RVal v)
              else match st r with
                   | Created => activate s f v false (return_target s f)
                   | _ => cross s f (Some v) false true
                   end
       end.
(** Fiber.yield (builtins/fiber.rs:248-271, executor.rs:2064, invoker.rs:400-420). *)
Definition yield (s : state) (v : val) : state * res :=
  match par (fib s (cur s)) with
  | None => (s, RErr (EFib NoParent))
  | Some p => arrive (on s (cur s) (set_top WYield)) p (Some v)
  end.
(** fiber_on_terminate (executor.rs:2109-2127); the root fiber's end is not modelled. *)
Definition terminate (s : state) (raw : option val) : state * res :=
  let c := cur s in
  let s := on s c (fun r => set_top WNone (set_st Done r)) in
  match match ret (fib s c) with Some t => Some t | None => par (fib s c) end with
  | None => (s, Crash)
  | Some t =>
      let s := match err (fib s c) with Some e => on (on s c (set_err None)) t (set_err (Some e)) | None => s end in
      arrive s t raw
  end.
(** inject_error. *)
Definition inject (s : state) (f : nat) (e : exn) (kill : bool) : state * res :=
  let style := yld (fib s f) in
  let s := on s f (set_err (Some e)) in
  if style then enter s f None kill else cross s f None kill false.
(** Fiber#raise (builtins/fiber.rs:440-503), with the exception made. *)
Definition raise (s : state) (f : nat) (e : exn) : state * res :=
  if f =? cur s then (s, RErr e)
  else match st (fib s f) with
       | Created => (s, RErr (EFib Unborn))
       | Done => (s, RErr (EFib Terminated))
       | Live => if resu (fib s f) then (s, RErr e) else inject s f e false
       end.
(** Fiber#kill (builtins/fiber.rs:377-423). *)
Definition kill (s : state) (f : nat) : state * res :=
  if f =? 0 then (s, RErr (EFib KillMain))
  else match st (fib s f) with
       | Done => (s, RErr (EFib Terminated))
       | x => if f =? cur s then (on s f (set_kld true), RErr EKill)
              else if resu (fib s f) then (on s f (set_kld true), RErr EKill)
              else match x with
                   | Created => (on s f (set_st Done), RVal VNil)
                   | _ => inject (on s f (set_kld true)) f EKill true
                   end
       end.
(** Fiber.new (builtins/fiber.rs:195-241) and Fiber::from. *)
Definition make (s : state) (i : bool) : state * res :=
  let r := mkF Created None None None false false false None (if i then None else Some (root_of s)) i WNone in
  (mkS (S (count s)) (cur s) (upd (fib s) (count s) r), RVal (VFiber (count s))).

Inductive op := ONew (internal : bool) | OResume (f : nat) (v : val) | OTransfer (f : nat) (v : val) | OYield (v : val)
              | OReturn (v : val) | ODie (e : exn) | ORaise (f : nat) (e : exn) | OKill (f : nat) | OAlive (f : nat).
(** The fiber an operation names. *)
Definition named (o : op) : nat :=
  match o with OResume f _ | OTransfer f _ | ORaise f _ | OKill f | OAlive f => f | _ => 0 end.
Definition step (s : state) (o : op) : state * res :=
  if named o <? count s
  then match o with
       | ONew i => make s i
       | OResume f v => resume s f v
       | OTransfer f v => transfer s f v
       | OYield v => yield s v
       | OReturn v => if cur s =? 0 then (s, RVal v) else terminate s (Some v)
       | ODie e => if cur s =? 0 then (s, RErr e) else terminate (on s (cur s) (set_err (Some e))) None
       | ORaise f e => raise s f e
       | OKill f => kill s f
       | OAlive f => (s, RVal (VBool ((f =? 0) || match st (fib s f) with Done => false | _ => true end)))
       end
  else (s, RVal VNil).
(** Which fiber runs then, and what it sees. After a crash nothing runs. *)
Fixpoint run (s : state) (l : list op) : list (nat * res) :=
  match l with
  | [] => []
  | o :: l => match step s o with
              | (s', Crash) => [(cur s', Crash)]
              | (s', r) => (cur s', r) :: run s' l
              end
  end.
(** The root fiber runs; it has no stack of its own to save yet, its state is never asked before the first switch. *)
Definition idle : fiber := mkF Created None None None false false false None None false WNone.
Definition start : state := mkS 1 0 (upd (fun _ => idle) 0 (set_st Live idle)).
