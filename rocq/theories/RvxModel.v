(* RvxModel.v -- READ, then VERIFY PROOF *, with proofs in all formats: ReadModel.readVerify
   with ExpModel.parseProofText in place of ParModel.parseText.  No proofs here. *)
From Verif Require Import Base TokModel LabModel SrcModel StmModel VerModel ParModel ExpModel ReadModel.
Open Scope nat_scope.

(* parseProof() of every $p in order (metamath.c VERIFY PROOF; mmcmds.c:4591-4711 verifyProofs).
   As ReadModel.parseAll *)
Fixpoint parseEvery (fuel : nat) (env : penv) (src : list nat) (ks : list kstmt) (n cnt prev : nat) : res (list parsed) :=
  match cnt with
  | 0 => Ok []
  | S cnt' =>
      do st <- rget (nth_error (db_stmts (e_db env)) n);
      match s_type st with
      | S_p =>
          let t := proofText src ks n in
          let max := wrkMax prev st (fst t) in
          do o <- parseProofText fuel env n max (fst t) (snd t);
          let '(k, zs, ec) := o in
          do p <- (match decAll zs with
                   | Some p => Ok p
                   | None => if k <? 2 then Bug 2101 else Ok []
                   end);
          do rest <- parseEvery fuel env src ks (S n) cnt' max;
          Ok (mkParsed k p k ec :: rest)
      | _ => do rest <- parseEvery fuel env src ks (S n) cnt' prev;
             Ok (mkParsed 4 [] 4 0 :: rest)
      end
  end.
Definition readVerifyAll (lsort : list lstmt -> list nat) (msort : list (list nat) -> list nat)
  (find : list (label * Z) -> label -> option Z) (minSub prev fuel : nat) (src : list nat)
  : res (list anyErr * bool * list (nat * diag) * rdb) :=
  do x <- readText lsort msort minSub src;
  let '(errs, r) := x in
  let env := envOf find r in
  do l <- parseEvery fuel env src (rd_ks r) 1 (length (db_stmts (e_db env)) - 1) prev;
  do v <- verifyProofs fuel (e_db env) (parsedAt l);
  Ok (errs, fst v, snd v, r).
