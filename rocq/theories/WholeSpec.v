(** Whole shares: what C74 says. *)
From Verif Require Export PortfolioSpec LoopSpec.

(** A whole number. *)
Definition whole (q : Q) : Prop := exists z : Z, q == inject_Z z.
(** The calls ask for whole numbers of shares. *)
Definition asks_whole (o : op) : Prop :=
  match o with OpBuy a | OpSell a => whole (a_shares a) | _ => True end.
(** Everything an account records or holds is a whole number of shares. *)
Record whole_account (p : port) : Prop := mkWholeAccount {
  wa_orders : Forall (fun o => whole (o_shares o)) (p_orders p);
  wa_trades : Forall (fun t => whole (t_shares t)) (p_trades p);
  wa_entries : forall sd s, Forall (fun e => whole (e_shares e)) (queue p sd s);
  wa_held : forall sd s, whole (shares_held p sd s)
}.
(** The share count that is sent for a wanted one: unchanged when fractions are
    traded, else with the fraction cut off. *)
Definition sendable (c : cfg) (want sent : Q) : Prop :=
  if c_fractional c then sent == want
  else whole sent /\ Qabs sent <= Qabs want /\ Qabs want < Qabs sent + 1 /\ 0 <= sent * want.
(** No slippage model that changes share counts. *)
Definition keeps_shares (v : env) : Prop := match v_slip v with SlipAny _ => False | _ => True end.
