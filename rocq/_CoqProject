-Q theories Verif
theories/Prelude.v
theories/M_Fuzzy.v
theories/M_Discretize.v
theories/P_FuzzySet.v
theories/P_FuzzyVar.v
theories/P_Entropy.v
theories/S_Discretize.v
theories/P_Discretize.v
theories/P_Discretize2.v
theories/M_Rule.v
theories/S_Rule.v
theories/P_Rule.v
theories/M_FDT.v
theories/S_FDT.v
theories/P_FDT.v
theories/P_FDT2.v
theories/P_FDT3.v
theories/P_FDT4.v
theories/M_Metrics.v
theories/S_Metrics.v
theories/P_Metrics.v
theories/M_Factual.v
theories/S_Factual.v
theories/P_Factual.v
theories/M_Counterfactual.v
theories/S_Counterfactual.v
theories/P_Counterfactual.v
theories/M_FBDT.v
theories/S_FBDT.v
theories/P_FBDT.v
theories/P_FBDT2.v
theories/P_FBDT3.v
theories/S_FBDT2.v
theories/S_FBDTPrivate.v
theories/P_FBDT4.v
theories/P_FBDT5.v
theories/P_FBDT6.v
theories/M_ID3.v
theories/S_ID3.v
theories/P_ID3.v
theories/P_ID3b.v
theories/P_ID3c.v
theories/M_Explainer.v
theories/S_Explainer.v
theories/P_Explainer.v
theories/Properties_Fuzzy.v
theories/Properties_Discretize.v
theories/Properties_Rule.v
theories/Properties_FDT.v
theories/Properties_Metrics.v
theories/Properties_Factual.v
theories/Properties_Counterfactual.v
theories/Properties_FBDT.v
theories/Properties_FBDT2.v
theories/Properties_FBDT3.v
theories/Properties_FBDT4.v
theories/Properties_ID3.v
theories/Properties_ID3b.v
theories/Properties_Explainer.v
theories/M_Neighborhood.v
theories/S_Neighborhood.v
theories/P_Neighborhood.v
theories/P_Neighborhood2.v
theories/P_Neighborhood3.v
theories/Properties_Neighborhood.v
theories/M_Sampling.v
theories/S_Sampling.v
theories/P_Sampling.v
theories/P_Sampling2.v
theories/Properties_Sampling.v
theories/M_Genetic.v
theories/S_Genetic.v
theories/P_Genetic.v
theories/P_Genetic2.v
theories/Properties_Genetic.v
theories/M_Utils.v
theories/S_Utils.v
theories/P_Utils.v
theories/P_Utils2.v
theories/P_Utils3.v
theories/P_Utils4.v
theories/Properties_Utils.v
theories/Properties_Utils2.v
theories/M_Lore.v
theories/S_Lore.v
theories/S_Lore2.v
theories/S_Lore3.v
theories/P_Lore.v
theories/P_Lore2.v
theories/P_Lore3.v
theories/P_Lore4.v
theories/Properties_Lore.v
theories/Properties_Lore2.v
theories/Properties_Lore3.v
theories/Properties_Utils3.v
theories/M_Datasets.v
theories/S_Datasets.v
theories/P_Datasets.v
theories/Properties_Datasets.v
theories/M_Equality.v
theories/P_Equality.v
theories/Properties_Equality.v
theories/M_Distr.v
theories/S_Distr.v
theories/P_Distr.v
theories/Properties_Distr.v
theories/M_Normalize.v
theories/S_Normalize.v
theories/P_Normalize.v
theories/Properties_Normalize.v
theories/S_Rows.v
theories/P_Rows.v
theories/P_Rows2.v
theories/P_Rows3.v
theories/Properties_Rows.v
theories/P_Units.v
theories/S_Degrees.v
theories/P_Degrees.v
theories/P_Degrees2.v
theories/Properties_Units.v
theories/Properties_Units2.v
theories/M_Text.v
theories/S_Text.v
theories/P_Text.v
theories/P_Text2.v
theories/P_Text3.v
theories/Properties_Text.v
theories/P_FBDT7.v
theories/Properties_FBDT5.v
theories/S_Labels.v
theories/P_Labels.v
theories/P_Labels2.v
theories/P_Labels3.v
theories/Properties_Labels.v
theories/S_Names.v
theories/P_Names.v
theories/P_Names2.v
theories/P_Names3.v
theories/Properties_Names.v
theories/M_FitState.v
theories/P_FitState.v
theories/Properties_FitState.v
theories/S_Columns.v
theories/P_Columns.v
theories/P_Columns2.v
theories/P_Columns3.v
theories/Properties_Columns.v
theories/M_Lore2.v
theories/S_Lore4.v
theories/Properties_Lore4.v
theories/M_Cut.v
theories/S_Cut.v
theories/P_Cut.v
theories/P_Cut2.v
theories/Properties_Cut.v
theories/M_Cut2.v
theories/S_Cut2.v
theories/P_Cut3.v
theories/Properties_Cut2.v
theories/M_SamplingFit.v
theories/S_SamplingFit.v
theories/P_SamplingFit.v
theories/Properties_SamplingFit.v
theories/S_Success.v
theories/P_Success.v
theories/Properties_Success.v
theories/Properties_Success2.v
theories/S_Pipeline.v
theories/P_Pipeline.v
theories/Properties_Pipeline.v
theories/S_Success2.v
theories/P_Success2.v
theories/Properties_Success3.v
theories/Properties_Pipeline2.v
theories/Properties_Pipeline3.v
theories/S_Refit.v
theories/P_Refit.v
theories/Properties_Refit.v
theories/S_History.v
theories/P_History.v
theories/Properties_History.v
theories/S_Twin.v
theories/P_Twin.v
theories/Properties_Twin.v
theories/S_Crisp.v
theories/P_Crisp.v
theories/P_Crisp2.v
theories/Properties_Crisp.v
theories/S_Crisp2.v
theories/P_Crisp3.v
theories/P_Crisp4.v
theories/Properties_Crisp2.v
theories/S_Same.v
theories/P_Same.v
theories/P_Same2.v
theories/P_Same3.v
theories/Properties_Same.v
theories/S_Optimal.v
theories/P_Optimal.v
theories/Properties_Optimal.v
theories/S_Depth.v
theories/P_Depth.v
theories/P_Depth2.v
theories/Properties_Depth.v
theories/S_Stricter.v
theories/P_Stricter.v
theories/Properties_Stricter.v
theories/S_Collapse.v
theories/Properties_Collapse.v
theories/Properties_Equality2.v
theories/Properties_ExplainOrder.v
theories/Properties_ExplainOrder2.v
