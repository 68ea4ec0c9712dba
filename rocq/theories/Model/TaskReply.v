(** base/message_loop/message_loop.h:83-103, message_loop.cc:225-300, base/closure/closure_task.h:86-112: posting a task with a reply.

    Several loops; a task is the label of what it does. Each post and each execution of one task is atomic (the check of running_
    and the push that follows it are one step). Threads that are not loops are [None]. *)
From Verif.Model Require Import Common.

(** closure_task.h:48-66 a plain closure; closure_task.h:86-112 a task with callback: [k] is the reply loop, None: no wrapping. *)
Inductive task := Plain (n : nat) | WithReply (n r : nat) (k : option nat).
(** message_loop.h:150-170: running_, scheduled_tasks_, in_loop_tasks_; [batch]: the vector nest_tasks being run by RunNestedTask. *)
Record loop := Loop { running : bool; sched : list task; nested : list task; batch : list task }.
Definition started : loop := Loop true [] [] [].
(** [log]: what ran, and on which loop's thread, oldest first. *)
Record world := World { loops : list loop; log : list (nat * nat) }.
Fixpoint set (l : list loop) (i : nat) (x : loop) : list loop :=
  match l, i with [] , _ => [] | _ :: l, O => x :: l | y :: l, S i => y :: set l i x end.
(** message_loop.cc:273-283. [cur]: the loop whose thread this is. *)
Definition PostTask (w : world) (cur : option nat) (l : nat) (t : task) : outcome world :=
  match nth_error (loops w) l with
  | None => UB
  | Some L =>
      if running L then
        Ok (World (set (loops w) l
          (if match cur with Some c => Nat.eqb c l | None => false end
           then Loop true (sched L) (nested L ++ [t]) (batch L)
           else Loop true (sched L ++ [t]) (nested L) (batch L))) (log w))
      else CheckFail
  end.
(** message_loop.h:93-103. *)
Definition PostTaskAndReplyTo (w : world) (cur : option nat) (l n r : nat) (k : option nat) : outcome world := PostTask w cur l (WithReply n r k).
(** message_loop.h:83-91: the reply loop is [this], the target. *)
Definition PostTaskAndReply (w : world) (cur : option nat) (l n r : nat) : outcome world := PostTaskAndReplyTo w cur l n r (Some l).
(** closure_task.h:55-62, 95-107; the wrapped reply of message_loop.h:99-101 posts from the thread of the loop that ran the task. *)
Definition run_task (w : world) (l : nat) (t : task) : outcome world :=
  match t with
  | Plain n => Ok (World (loops w) (log w ++ [(l, n)]))
  | WithReply n r None => Ok (World (loops w) (log w ++ [(l, n); (l, r)]))
  | WithReply n r (Some k) => PostTask (World (loops w) (log w ++ [(l, n)])) (Some l) k (Plain r)
  end.
(** What happens: posts by any thread, one task of RunScheduledTask (285-292), RunNestedTask taking its vector (297) and running one
    task of it (298-300), QuitLoop. After QuitLoop the remaining tasks still run (message_loop.cc:246-248). *)
Inductive op :=
| OPost (cur : option nat) (l n : nat)
| OReply (cur : option nat) (l n r : nat)
| OReplyTo (cur : option nat) (l n r : nat) (k : option nat)
| OSched (l : nat) | OTake (l : nat) | ONested (l : nat) | OQuit (l : nat).
Definition step (w : world) (o : op) : outcome world :=
  match o with
  | OPost cur l n => PostTask w cur l (Plain n)
  | OReply cur l n r => PostTaskAndReply w cur l n r
  | OReplyTo cur l n r k => PostTaskAndReplyTo w cur l n r k
  | OSched l => match nth_error (loops w) l with
      | Some (Loop b (t :: q) ne []) => run_task (World (set (loops w) l (Loop b q ne [])) (log w)) l t
      | _ => Ok w end
  | OTake l => match nth_error (loops w) l with
      | Some (Loop b q ne []) => Ok (World (set (loops w) l (Loop b q [] ne)) (log w))
      | _ => Ok w end
  | ONested l => match nth_error (loops w) l with
      | Some (Loop b q ne (t :: ba)) => run_task (World (set (loops w) l (Loop b q ne ba)) (log w)) l t
      | _ => Ok w end
  | OQuit l => match nth_error (loops w) l with
      | Some L => Ok (World (set (loops w) l (Loop false (sched L) (nested L) (batch L))) (log w))
      | None => Ok w end
  end.
Fixpoint run (w : world) (os : list op) : outcome world :=
  match os with [] => Ok w | o :: os => obind (step w o) (fun w => run w os) end.
Definition boot (n : nat) : world := World (repeat started n) [].
