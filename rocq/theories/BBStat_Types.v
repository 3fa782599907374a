(** The choices offered by --binByBinStatType, --binByBinStatMode and the likelihood. *)
Inductive lik := Poisson | Chisq.
Inductive bbtype := Gamma | NormalMult | NormalAdd.
Inductive bbmode := Lite | Full.
