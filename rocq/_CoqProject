-Q theories Verif
theories/L_Balance.v
theories/L_Balance2.v
theories/L_Balance3.v
theories/L_Balance4.v
theories/L_Balance5.v
theories/L_Block.v
theories/L_Block2.v
theories/L_Block3.v
theories/L_Block4.v
theories/L_Block5.v
theories/L_Block6.v
theories/L_Block7.v
theories/L_BlockEx.v
theories/L_Box.v
theories/L_Cool.v
theories/L_Cool2.v
theories/L_Dens.v
theories/L_Dens2.v
theories/L_Dens3.v
theories/L_Dens4.v
theories/L_Dens5.v
theories/L_Dens6.v
theories/L_Dens7.v
theories/L_Dens8.v
theories/L_Dens9.v
theories/L_Diag.v
theories/L_Diag2.v
theories/L_Diag3.v
theories/L_Distant.v
theories/L_Distant2.v
theories/L_Distant3.v
theories/L_Distant4.v
theories/L_Distant5.v
theories/L_Dust.v
theories/L_Dust2.v
theories/L_Dust3.v
theories/L_Dust4.v
theories/L_Eos.v
theories/L_ExTree.v
theories/L_Exact.v
theories/L_Exact2.v
theories/L_Exact3.v
theories/L_Exact4.v
theories/L_Exact5.v
theories/L_Exact6.v
theories/L_Export.v
theories/L_Export2.v
theories/L_Export3.v
theories/L_Force.v
theories/L_Force2.v
theories/L_Force3.v
theories/L_Force4.v
theories/L_Force5.v
theories/L_Gather.v
theories/L_GatherGhost.v
theories/L_Ghost.v
theories/L_Ghost2.v
theories/L_Grad.v
theories/L_Grad2.v
theories/L_Grad3.v
theories/L_Hermite.v
theories/L_Hermite10.v
theories/L_Hermite11.v
theories/L_Hermite12.v
theories/L_Hermite13.v
theories/L_Hermite14.v
theories/L_Hermite2.v
theories/L_Hermite3.v
theories/L_Hermite4.v
theories/L_Hermite5.v
theories/L_Hermite6.v
theories/L_Hermite7.v
theories/L_Hermite8.v
theories/L_Hermite9.v
theories/L_KDBuild.v
theories/L_KDDivide.v
theories/L_KDStruct.v
theories/L_KDTop.v
theories/L_Kernel.v
theories/L_Kernel2.v
theories/L_Lattice.v
theories/L_Lattice2.v
theories/L_Lattice3.v
theories/L_Lattice4.v
theories/L_League.v
theories/L_League2.v
theories/L_Leapfrog.v
theories/L_Leapfrog2.v
theories/L_Level.v
theories/L_Lookup.v
theories/L_Matrix.v
theories/L_Mfv.v
theories/L_Mfv2.v
theories/L_Mfv3.v
theories/L_Mfv4.v
theories/L_Mfv5.v
theories/L_MfvEx.v
theories/L_NNTree.v
theories/L_NNTree2.v
theories/L_NNTree3.v
theories/L_NNTree4.v
theories/L_NNTree5.v
theories/L_NNTree6.v
theories/L_NNTree7.v
theories/L_Neib.v
theories/L_Neib2.v
theories/L_Oct.v
theories/L_Oct2.v
theories/L_Oct3.v
theories/L_Oct4.v
theories/L_Oct5.v
theories/L_Oct6.v
theories/L_Oct7.v
theories/L_Oct8.v
theories/L_Opening.v
theories/L_Output.v
theories/L_Output2.v
theories/L_Output3.v
theories/L_Output4.v
theories/L_Params.v
theories/L_Params2.v
theories/L_Params3.v
theories/L_Periodic.v
theories/L_Periodic2.v
theories/L_Prelude.v
theories/L_Prune.v
theories/L_Prune2.v
theories/L_Prune3.v
theories/L_Prune4.v
theories/L_QuickSelect.v
theories/L_Radws.v
theories/L_Radws2.v
theories/L_Rand.v
theories/L_Render.v
theories/L_Render2.v
theories/L_Return.v
theories/L_Return2.v
theories/L_Return3.v
theories/L_Return4.v
theories/L_Riemann.v
theories/L_Riemann2.v
theories/L_Riemann3.v
theories/L_Search.v
theories/L_Sink.v
theories/L_Sink2.v
theories/L_Sink3.v
theories/L_Sink4.v
theories/L_Sink5.v
theories/L_SinkNew.v
theories/L_Sort.v
theories/L_Star.v
theories/L_Stock.v
theories/L_StockTop.v
theories/L_StockTree.v
theories/L_Store.v
theories/L_Supernova.v
theories/L_Sync.v
theories/L_Sync2.v
theories/L_Table.v
theories/L_Tree.v
theories/L_Units.v
theories/L_Units2.v
theories/L_Util.v
theories/M_Balance.v
theories/M_Block.v
theories/M_Box.v
theories/M_Dens.v
theories/M_Diag.v
theories/M_Distant.v
theories/M_Dust.v
theories/M_Eos.v
theories/M_Exact.v
theories/M_Export.v
theories/M_Force.v
theories/M_Gather.v
theories/M_GatherGhost.v
theories/M_Ghost.v
theories/M_Grad.v
theories/M_Hermite.v
theories/M_KDTree.v
theories/M_Kernel.v
theories/M_Lattice.v
theories/M_League.v
theories/M_Leapfrog.v
theories/M_Level.v
theories/M_Lookup.v
theories/M_Matrix.v
theories/M_Mfv.v
theories/M_NNTree.v
theories/M_Neib.v
theories/M_Oct.v
theories/M_Output.v
theories/M_Params.v
theories/M_Periodic.v
theories/M_Prune.v
theories/M_Radws.v
theories/M_Rand.v
theories/M_Render.v
theories/M_Return.v
theories/M_Riemann.v
theories/M_Search.v
theories/M_Sink.v
theories/M_SinkNew.v
theories/M_Sort.v
theories/M_Stock.v
theories/M_Store.v
theories/M_Supernova.v
theories/M_Sync.v
theories/M_Table.v
theories/M_Units.v
theories/M_Util.v
theories/M_Walk.v
theories/P_Balance.v
theories/P_Block.v
theories/P_Box.v
theories/P_Cool.v
theories/P_Dens.v
theories/P_Diag.v
theories/P_Distant.v
theories/P_Dust.v
theories/P_Eos.v
theories/P_Exact.v
theories/P_Export.v
theories/P_Force.v
theories/P_Gather.v
theories/P_GatherGhost.v
theories/P_Ghost.v
theories/P_Grad.v
theories/P_Gravity.v
theories/P_Hermite.v
theories/P_Hermite2.v
theories/P_KDTree.v
theories/P_Kernel.v
theories/P_Lattice.v
theories/P_League.v
theories/P_Leapfrog.v
theories/P_Level.v
theories/P_Mfv.v
theories/P_Mfv2.v
theories/P_NNTree.v
theories/P_Neib.v
theories/P_Oct.v
theories/P_Output.v
theories/P_Params.v
theories/P_Periodic.v
theories/P_Prune.v
theories/P_QuickSelect.v
theories/P_Radws.v
theories/P_Rand.v
theories/P_Render.v
theories/P_Return.v
theories/P_Riemann.v
theories/P_Sink.v
theories/P_SinkNew.v
theories/P_Sort.v
theories/P_Stock.v
theories/P_Supernova.v
theories/P_Sync.v
theories/P_Table.v
theories/P_Units.v
theories/P_Util.v
theories/Prelude.v
theories/S_Balance.v
theories/S_Block.v
theories/S_Box.v
theories/S_Dens.v
theories/S_Dens2.v
theories/S_Diag.v
theories/S_Distant.v
theories/S_Dust.v
theories/S_Eos.v
theories/S_Exact.v
theories/S_Export.v
theories/S_Force.v
theories/S_Ghost.v
theories/S_Grad.v
theories/S_Hermite.v
theories/S_KD.v
theories/S_Kernel.v
theories/S_Lattice.v
theories/S_League.v
theories/S_Leapfrog.v
theories/S_Mfv.v
theories/S_NNTree.v
theories/S_Neib.v
theories/S_Oct.v
theories/S_Output.v
theories/S_Params.v
theories/S_Periodic.v
theories/S_Prune.v
theories/S_Radws.v
theories/S_Render.v
theories/S_Return.v
theories/S_Riemann.v
theories/S_Search.v
theories/S_Sink.v
theories/S_SinkNew.v
theories/S_Sort.v
theories/S_Stock.v
theories/S_Supernova.v
theories/S_Sync.v
theories/S_Table.v
theories/S_Tree.v
theories/S_Units.v
theories/S_Util.v
theories/Vec.v
