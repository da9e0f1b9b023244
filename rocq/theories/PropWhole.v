(** Property of whole shares: C74. [whole], [whole_account], [sendable] and
    [keeps_shares] are in WholeSpec.v. *)
From Verif Require Import PortfolioDemo LoopExit LoopDemo WholeLoop.

(** A run that wants 10.5 shares, sells 3.9 of them, then leaves the position,
    and buys 2.75 with a slippage model that halves the count. *)
Definition whole_cfg : cfg := mkCfg 10000 None None false PMDefault None None 1 0 None.
Definition whole_sigs (i : nat) (p : port) (s : sym) : sig :=
  match i, s with
  | 0%nat, 0%nat => set_buy (Some (21#2)) no_signals
  | 1%nat, 0%nat => set_sell (Some (39#10)) no_signals
  | 2%nat, 0%nat => match sell_all_shares p 0%nat no_signals with Some g => g | None => no_signals end
  | 3%nat, _ => set_buy (Some (11#4)) no_signals
  | _, _ => no_signals
  end.
Definition whole_env (sl : slip) : env :=
  mkEnv whole_cfg [1; 2; 3; 4; 5; 6]%Z [0; 1]%nat (fun s => match s with 0%nat => [1; 2; 3; 4; 5; 6]%Z | _ => [1; 3; 4; 6]%Z end)
    None 1 1 false false 0 (fun _ => None) (mkSettings None None None)
    (fun i => mkScope (fun _ => true) (fun s _ => price_of i s) (fun s _ => price_of i s))
    (fun i s => Some (price_of i s, Some (price_of i s), Some (price_of i s)))
    (fun i s _ => Some (price_of i s)) (fun i s => Some (price_of i s)) (fun i s => (price_of i s, price_of i s))
    sl (fun _ => None)
    (fun i _ p _ _ => mkUout [] (whole_sigs i p)) None.
Definition halving : slip := SlipAny (fun i _ _ q p => (if Nat.eqb i 4 then q / 2 else q, p)).
Lemma whole_env_ok sl : windows_ok whole_cfg [whole_env sl].
Proof.
  split; [|split; [reflexivity|split; [constructor|exact I]]]. constructor.
  - cbn. repeat (split; [repeat apply Forall_cons; try apply Forall_nil; lia|]). exact I.
  - cbn. repeat constructor; cbn; intuition lia.
  - intros s _. split.
    + destruct s as [|s]; cbn; repeat (split; [repeat apply Forall_cons; try apply Forall_nil; lia|]); exact I.
    + destruct s as [|s]; cbn; intros x; cbn; intuition lia.
  - discriminate.
  - cbn. lia.
Qed.

(** ** C74 *)
(** With fractional shares off, in a backtest over any data, with any execution
    functions, stops and slippage: every order and trade recorded, every entry
    and every position held is a whole number of shares. *)
Theorem C74_backtest c l k b : c_fractional c = false -> windows_ok c l -> backtests l (fresh c k) = Some b ->
  whole_account (b_port b).
Proof.
  intros FR W E. destruct (backtests_whole c l k b FR W E) as [R H]. apply whole_of. exact (port_whole c FR b R H).
Qed.
Print Assumptions C74_backtest.
(** The same for an account used directly, while the orders it is given ask for
    whole numbers of shares; stops, exits and partial closes keep it so. *)
Theorem C74_account c ops p : c_fractional c = false -> Forall asks_whole ops -> run c ops = Some p -> whole_account p.
Proof. exact (account_whole c ops p). Qed.
Print Assumptions C74_account.
(** The count sent for an order that is not an exit is the count the execution
    function asked for, with only the fraction cut off when fractions are not
    traded: nothing else is lost and nothing is added. *)
Theorem C74_sent c l k b ty a : windows_ok c l -> (forall v, In v l -> keeps_shares v) -> backtests l (fresh c k) = Some b ->
  In (order_call ty a) (b_ops b) ->
  exists n, In n (entered (b_kops b)) /\ n_type n = ty /\ a_sym a = n_sym n /\ a_created a = Some (n_created n) /\
    (n_exit n = None -> sendable c (n_shares n) (a_shares a)).
Proof. intros W KEEP E. exact (proj2 (backtests_exact c l k b KEEP W E) ty a). Qed.
Print Assumptions C74_sent.
(** 10.5 became 10, 3.9 became 3, the exit sold the other 7; of 2.75 the model
    halved 2 to 1. *)
Example C74_example : windows_ok whole_cfg [whole_env halving] /\
  match backtests [whole_env halving] (fresh whole_cfg 0) with
  | Some b => map (fun o => (o_sym o, Qred (o_shares o))) (p_orders (b_port b)) = [(0%nat, 10); (0%nat, 3); (0%nat, 7); (0%nat, 1); (1%nat, 2)] /\
      map (fun n => Qred (n_shares n)) (entered (b_kops b)) = [21#2; 39#10; 7; 11#4; 11#4]
  | None => False
  end /\
  match backtests [whole_env SlipNone] (fresh whole_cfg 0) with
  | Some b => map (fun o => Qred (o_shares o)) (p_orders (b_port b)) = [10; 3; 7; 2; 2]
  | None => False
  end.
Proof. split; [apply whole_env_ok|]. conj; comp. conj; comp. Qed.
(** The hypothesis of [C74_account] is needed: the account itself takes a fraction
    it is asked for. *)
Example C74_fraction_asked : exists p, run whole_cfg [OpBuy (mkOArgs 1 0%nat (3#2) 10 None None None OMarket None)] = Some p /\
  map (fun o => Qred (o_shares o)) (p_orders p) = [3#2].
Proof. eexists. split; vm_compute; reflexivity. Qed.
