-Q theories Verif
theories/Base.v
theories/Num.v
theories/Tape.v
theories/Digamma.v
theories/Chains.v
theories/Vari.v
theories/Arrays.v
theories/Ops.v
theories/Session.v
theories/TapeFacts.v
theories/Graph.v
theories/Refine.v
theories/RefineChain.v
theories/RefineOps.v
theories/RefineSession.v
theories/B64.v
theories/B64Facts.v
theories/Valid.v
theories/Observe.v
theories/Frames.v
theories/Forward.v
theories/Twin.v
theories/Blocks.v
theories/Storage.v
theories/Reach.v
theories/Claims_storage.v
theories/RelSpec.v
theories/Claims_session.v
theories/Findings.v
theories/ArraysFacts.v
theories/Properties_storage.v
theories/Properties_session.v
theories/RNum.v
theories/RSpec.v
theories/ArrSpec.v
theories/Calculus.v
theories/Adjoint.v
theories/Deriv.v
theories/DerivProg.v
theories/Track.v
theories/Claims_deriv.v
theories/Claims_uses.v
theories/Claims_leaf.v
theories/Claims_call.v
theories/Nested.v
theories/Claims_block.v
theories/Claims_total.v
theories/Claims_each.v
theories/Claims_arr.v
theories/Claims_real.v
theories/Claims_abs.v
theories/Properties_deriv.v
theories/Claims_lpdf.v
theories/ExactSpec.v
theories/Exact.v
theories/Claims_exact.v
theories/Exact_mat.v
theories/Claims_idle.v
theories/Claims_logit.v
theories/Claims_digamma.v
theories/Properties_more.v
theories/Cvodes.v
theories/CvodesFacts.v
theories/CvodesSpec.v
theories/CvodesDrive.v
theories/Claims_cvodes.v
theories/Findings_cvodes.v
theories/Properties_cvodes.v
theories/CostSpec.v
theories/Claims_cost.v
theories/BranchSpec.v
theories/Claims_branch.v
theories/Claims_run.v
theories/ReverseSpec.v
theories/RepeatSpec.v
theories/Rename.v
theories/Claims_reverse.v
theories/Claims_reverse2.v
theories/Properties_branch.v
theories/Claims_repeat.v
theories/Blind.v
theories/Claims_effect.v
theories/Steady.v
theories/Claims_again.v
theories/Properties_reverse.v
theories/Findings_repeat.v
theories/Properties_repeat.v
theories/Properties_effect.v
theories/Expect.v
theories/Claims_expect.v
theories/Properties_expect.v
theories/Service.v
theories/Claims_service.v
theories/Properties_service.v
theories/SensSpec.v
theories/Claims_sens.v
theories/Claims_drive.v
theories/Properties_sens.v
theories/SmoothSpec.v
theories/Claims_link.v
theories/Properties_smooth.v
theories/DocsSpec.v
theories/Docs.v
theories/Claims_docs.v
theories/Claims_docs2.v
theories/Properties_docs.v
theories/TestMath.v
theories/Repo_tests.v
theories/UnusedSpec.v
theories/Claims_isq.v
theories/Claims_unused.v
theories/Claims_neutral.v
theories/Properties_extra.v
theories/AccSpec.v
theories/Claims_acc.v
theories/Claims_acc2.v
theories/Claims_acc3.v
theories/Claims_acc4.v
theories/Properties_acc.v
theories/ApartSpec.v
theories/Claims_apart.v
theories/Properties_apart.v
theories/Claims_apart2.v
theories/Properties_apart2.v
theories/DensSpec.v
theories/Claims_dens.v
theories/Properties_dens.v
