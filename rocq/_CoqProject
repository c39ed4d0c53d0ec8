-Q theories Verif
theories/L_Adjust.v
theories/L_AdjustMany.v
theories/L_AuxCols.v
theories/L_BootCache.v
theories/L_BootSql.v
theories/L_Bootstrap.v
theories/L_Bootstrap2.v
theories/L_Bootstrap3.v
theories/L_Cache.v
theories/L_CacheTop.v
theories/L_CiBase.v
theories/L_Display.v
theories/L_Elastic.v
theories/L_Fista.v
theories/L_Fp.v
theories/L_Frame.v
theories/L_Fsum.v
theories/L_Hash.v
theories/L_JackCache.v
theories/L_JackSE.v
theories/L_Jackknife.v
theories/L_Jackknife2.v
theories/L_Jackknife3.v
theories/L_Leaf.v
theories/L_Leaf2.v
theories/L_Leaf3.v
theories/L_LeastSq.v
theories/L_LogFista.v
theories/L_LogSlices.v
theories/L_Logistic.v
theories/L_Logistic2.v
theories/L_Melt.v
theories/L_Models.v
theories/L_Naming.v
theories/L_Nth.v
theories/L_Objects1.v
theories/L_Objects2.v
theories/L_Objects3.v
theories/L_Objects4.v
theories/L_OpList1.v
theories/L_OpList2.v
theories/L_OpList3.v
theories/L_OpList4.v
theories/L_OpList5.v
theories/L_OpList6.v
theories/L_OpsA.v
theories/L_OpsB.v
theories/L_OpsC.v
theories/L_Precomp.v
theories/L_Quantile.v
theories/L_RankCorr.v
theories/L_Ridge.v
theories/L_RidgeNorm.v
theories/L_RowOrder.v
theories/L_SliceTree.v
theories/L_Slices.v
theories/L_Slices2.v
theories/L_SqlAdjust1.v
theories/L_SqlAdjust2.v
theories/L_SqlAdjust3.v
theories/L_SqlAdjust4.v
theories/L_SqlAdjust5.v
theories/L_SqlAdjust6.v
theories/L_SqlArith.v
theories/L_SqlBin.v
theories/L_SqlBin2.v
theories/L_SqlBin3.v
theories/L_SqlBoot1.v
theories/L_SqlBoot2.v
theories/L_SqlBoot3.v
theories/L_SqlBoot4.v
theories/L_SqlBootPre1.v
theories/L_SqlBootPre2.v
theories/L_SqlBootPre3.v
theories/L_SqlChangeList1.v
theories/L_SqlChangeList2.v
theories/L_SqlChangeList3.v
theories/L_SqlColumns.v
theories/L_SqlDistList1.v
theories/L_SqlDistList2.v
theories/L_SqlExtend.v
theories/L_SqlFilter.v
theories/L_SqlGlobal.v
theories/L_SqlJack1.v
theories/L_SqlJack2.v
theories/L_SqlJack3.v
theories/L_SqlJack4.v
theories/L_SqlJack5.v
theories/L_SqlJack6.v
theories/L_SqlJack7.v
theories/L_SqlLeaf.v
theories/L_SqlLeaf2.v
theories/L_SqlList.v
theories/L_SqlList2.v
theories/L_SqlList3.v
theories/L_SqlLoo1.v
theories/L_SqlLoo2.v
theories/L_SqlLoo3.v
theories/L_SqlLoo4.v
theories/L_SqlMH1.v
theories/L_SqlMH2.v
theories/L_SqlMH3.v
theories/L_SqlMH4.v
theories/L_SqlMHList1.v
theories/L_SqlMHList2.v
theories/L_SqlMHList3.v
theories/L_SqlMixed.v
theories/L_SqlMixedBoot1.v
theories/L_SqlMixedBoot2.v
theories/L_SqlMixedJack1.v
theories/L_SqlMixedJack2.v
theories/L_SqlMixedJack3.v
theories/L_SqlNamesP.v
theories/L_SqlOps.v
theories/L_SqlOps2.v
theories/L_SqlOps3.v
theories/L_SqlOps4.v
theories/L_SqlOps5.v
theories/L_SqlOps6.v
theories/L_SqlOps7.v
theories/L_SqlPoisson1.v
theories/L_SqlPoisson2.v
theories/L_SqlPoisson3.v
theories/L_SqlPoisson4.v
theories/L_SqlPoisson5.v
theories/L_SqlScope.v
theories/L_SqlSort.v
theories/L_SqlSummary.v
theories/L_SqlSummary2.v
theories/L_SqlText.v
theories/M_Adjust.v
theories/M_AdjustMany.v
theories/M_AuxCols.v
theories/M_BootCache.v
theories/M_BootSql.v
theories/M_Bootstrap.v
theories/M_Cache.v
theories/M_CiBase.v
theories/M_Display.v
theories/M_ElasticNet.v
theories/M_Frame.v
theories/M_Hash.v
theories/M_JackCache.v
theories/M_Jackknife.v
theories/M_Leaf.v
theories/M_Logistic.v
theories/M_Melt.v
theories/M_Metric.v
theories/M_Models.v
theories/M_Naming.v
theories/M_Nth.v
theories/M_Num.v
theories/M_NxxFloat.v
theories/M_Objects.v
theories/M_OpList.v
theories/M_Ops.v
theories/M_Precomp.v
theories/M_Quantile.v
theories/M_RankCorr.v
theories/M_Slices.v
theories/M_SqlAdjust.v
theories/M_SqlArith.v
theories/M_SqlBoot.v
theories/M_SqlBootPre.v
theories/M_SqlChangeList.v
theories/M_SqlColumns.v
theories/M_SqlDistList.v
theories/M_SqlExtend.v
theories/M_SqlFilter.v
theories/M_SqlGlobal.v
theories/M_SqlJackFast.v
theories/M_SqlJackknife.v
theories/M_SqlLeaf.v
theories/M_SqlList.v
theories/M_SqlMH.v
theories/M_SqlMHList.v
theories/M_SqlMixed.v
theories/M_SqlMixedBoot.v
theories/M_SqlMixedJack.v
theories/M_SqlOps.v
theories/M_SqlPoisson.v
theories/M_SqlPoissonPre.v
theories/M_SqlText.v
theories/P_Adjust.v
theories/P_AdjustMany.v
theories/P_AuxCols.v
theories/P_BootSql.v
theories/P_Bootstrap.v
theories/P_Cache.v
theories/P_CiBase.v
theories/P_Display.v
theories/P_JackCache.v
theories/P_Jackknife.v
theories/P_Leaf.v
theories/P_Logistic.v
theories/P_Melt.v
theories/P_Models.v
theories/P_Naming.v
theories/P_Nth.v
theories/P_Objects.v
theories/P_OpList.v
theories/P_Ops.v
theories/P_Precomp.v
theories/P_Quantile.v
theories/P_RankCorr.v
theories/P_RowOrder.v
theories/P_SliceTree.v
theories/P_Slices.v
theories/P_SqlAdjust.v
theories/P_SqlArith.v
theories/P_SqlBoot.v
theories/P_SqlBootPre.v
theories/P_SqlChangeList.v
theories/P_SqlDistList.v
theories/P_SqlExtend.v
theories/P_SqlFilter.v
theories/P_SqlGlobal.v
theories/P_SqlJackFast.v
theories/P_SqlJackknife.v
theories/P_SqlLeaf.v
theories/P_SqlList.v
theories/P_SqlMH.v
theories/P_SqlMHList.v
theories/P_SqlMixed.v
theories/P_SqlMixedBoot.v
theories/P_SqlMixedJack.v
theories/P_SqlNames.v
theories/P_SqlOps.v
theories/P_SqlPoisson.v
theories/P_SqlPoissonPre.v
theories/S_Adjust.v
theories/S_AdjustMany.v
theories/S_AuxCols.v
theories/S_Bootstrap.v
theories/S_Cache.v
theories/S_CacheEx.v
theories/S_CiBase.v
theories/S_Display.v
theories/S_Hash.v
theories/S_Jackknife.v
theories/S_Leaf.v
theories/S_Logistic.v
theories/S_Models.v
theories/S_Naming.v
theories/S_Objects.v
theories/S_OpList.v
theories/S_Ops.v
theories/S_Precomp.v
theories/S_RankCorr.v
theories/S_RowOrder.v
theories/S_SliceTree.v
theories/S_Slices.v
theories/S_SqlAdjust.v
theories/S_SqlArith.v
theories/S_SqlBoot.v
theories/S_SqlBootPre.v
theories/S_SqlChangeList.v
theories/S_SqlDistList.v
theories/S_SqlExtend.v
theories/S_SqlFilter.v
theories/S_SqlGlobal.v
theories/S_SqlJackFast.v
theories/S_SqlJackknife.v
theories/S_SqlLeaf.v
theories/S_SqlList.v
theories/S_SqlMH.v
theories/S_SqlMHList.v
theories/S_SqlMixed.v
theories/S_SqlMixedBoot.v
theories/S_SqlNames.v
theories/S_SqlOps.v
theories/S_SqlPoisson.v
theories/S_SqlPoissonPre.v
