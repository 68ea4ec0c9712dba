(** C305, C306: AUTH and SELECT at the start of a redis connection. *)
From Verif.Model Require Import Common Resp RedisInit.
From Verif.Spec Require Import RespSpec RedisInitSpec.
From Verif.Proofs Require RedisInitProofs RespSvc.
Open Scope Z_scope.

(** C305. The first bytes a server gets are exactly the configured AUTH and SELECT; when their answers [rs] have all
    arrived, in whatever pieces, the connection is reported once: ready if every one is accepted, closed if not. *)
Theorem C305_ready_iff_accepted : forall passwd db rs chunks,
  Z.of_nat (length passwd) < 2 ^ 32 -> Z.of_nat (length db) < 2 ^ 32 -> (passwd <> [] \/ db <> []) ->
  Forall wf_rval rs -> length rs = length (init_commands passwd db) -> concat chunks = concat (map wire rs) ->
  exists r s, init_run passwd db (map Data chunks) = Ok ([ISent (concat (map wire (init_commands passwd db))); r], s) /\
    (r = IReady /\ Forall accepted rs \/ r = IClosed /\ ~ Forall accepted rs).
Proof.
  intros passwd db rs chunks Hp Hd Hne Hwf Hlen Hc.
  assert (N : init_commands passwd db <> []).
  { unfold init_commands. destruct list_eq_dec as [->|], list_eq_dec as [->|]; try discriminate. intro; now destruct Hne. }
  destruct (RedisInitProofs.all_in passwd db rs chunks Hp Hd N Hwf Hlen Hc) as (s & ok & E & _ & I).
  eexists _, _. split; [exact E|]. destruct ok; [left|right]; (split; [reflexivity|]); [now apply I|].
  intro F. apply I in F. discriminate.
Qed.

(** Before the last byte of the last answer nothing is reported. *)
Theorem C305_not_before : forall passwd db rs chunks more,
  Z.of_nat (length passwd) < 2 ^ 32 -> Z.of_nat (length db) < 2 ^ 32 -> (passwd <> [] \/ db <> []) ->
  Forall wf_rval rs -> length rs = length (init_commands passwd db) ->
  concat chunks ++ more = concat (map wire rs) -> more <> [] ->
  exists s, init_run passwd db (map Data chunks) = Ok ([ISent (concat (map wire (init_commands passwd db)))], s).
Proof.
  intros passwd db rs chunks more Hp Hd Hne.
  assert (N : init_commands passwd db <> []).
  { unfold init_commands. destruct list_eq_dec as [->|], list_eq_dec as [->|]; try discriminate. intro; now destruct Hne. }
  exact (fun a b c d => RedisInitProofs.not_all_in passwd db rs chunks more Hp Hd N a b c d).
Qed.

(** A password "pw" and the database "2", accepted and refused, in awkward pieces. *)
Example C305_nonvacuous :
  let go := init_run [112; 119] [50] in
  let sent := [42;50;13;10; 36;52;13;10; 65;85;84;72; 13;10; 36;50;13;10; 112;119; 13;10;
               42;50;13;10; 36;54;13;10; 83;69;76;69;67;84; 13;10; 36;49;13;10; 50; 13;10] in
  (exists s, go (map Data [[43;79]; [75;13]; [10;43;79;75]; []; [13;10]]) = Ok ([ISent sent; IReady], s)) /\
  (exists s, go (map Data [[43;79;75;13;10;45]; [69;82;82;13;10]]) = Ok ([ISent sent; IClosed], s)) /\
  (exists s, go (map Data [[43;79;75;13;10;43;79;75;13]]) = Ok ([ISent sent], s)) /\
  Forall wf_rval [RString [79; 75]; RError [69; 82; 82]] /\ ~ Forall accepted [RString [79; 75]; RError [69; 82; 82]] /\
  [43;79;75;13;10] ++ [45;69;82;82;13;10] = concat (map wire [RString [79; 75]; RError [69; 82; 82]]).
Proof.
  vm_compute. repeat split; try (eexists; reflexivity); try (repeat constructor; intro; discriminate).
  intro H. inversion H as [|? ? ? H2]; subst. inversion H2 as [|? ? [r E]]; subst. discriminate.
Qed.

(** C306. The answers to AUTH and SELECT are never taken for answers to requests: the requests made after the
    connection became ready, one after the other, get exactly their own replies (with or without AUTH and SELECT). *)
Theorem C306_init_replies_not_mixed : forall passwd db rs chunks xs,
  Z.of_nat (length passwd) < 2 ^ 32 -> Z.of_nat (length db) < 2 ^ 32 ->
  Forall wf_rval rs -> Forall accepted rs -> length rs = length (init_commands passwd db) ->
  concat chunks = concat (map wire rs) -> Forall good_exchange xs ->
  exists s, init_run passwd db (map Data chunks ++ sequential xs) =
    Ok ((if list_eq_dec Z.eq_dec (passwd ++ db) [] then []
         else [ISent (concat (map wire (init_commands passwd db)))]) ++
        IReady :: map (fun x => IOut (Done (xid x) (replies x))) xs, s).
Proof. exact RedisInitProofs.then_requests. Qed.

Example C306_nonvacuous :
  let x := mkx 7 [RString [79; 75]; RInt 5] [[43;79;75;13;10;58]; [53;13;10]] in
  good_exchange x /\
  (exists s, init_run [] [50] (map Data [[43;79;75;13;10]] ++ sequential [x; x]) =
     Ok ([ISent [42;50;13;10; 36;54;13;10; 83;69;76;69;67;84; 13;10; 36;49;13;10; 50; 13;10]; IReady;
          IOut (Done 7 [RString [79; 75]; RInt 5]); IOut (Done 7 [RString [79; 75]; RInt 5])], s)) /\
  (exists s, init_run [] [] (sequential [x]) = Ok ([IReady; IOut (Done 7 [RString [79; 75]; RInt 5])], s)).
Proof.
  split; [|vm_compute; split; eexists; reflexivity].
  repeat split; try (cbn; lia); try reflexivity. repeat constructor; lia.
Qed.

Print Assumptions C305_ready_iff_accepted.
Print Assumptions C305_not_before.
Print Assumptions C306_init_replies_not_mixed.
